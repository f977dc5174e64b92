(** Proofs about datasets. *)
From Coq Require Import String List ZArith QArith Bool Arith Lia Permutation.
From Verif Require Import Np NpFacts Labels Spec SpecFacts SelectProofs2 PipeModel PipeSpec PipeProofs DataModel DataSpec.
Import ListNotations.
Local Open Scope nat_scope.
Local Open Scope list_scope.

Lemma dict_set_absent {V} n (v : V) d : dict_get String.eqb n d = None -> dict_set String.eqb n v d = d ++ [(n, v)].
Proof.
  induction d as [|[k x] d IH]; simpl; auto. destruct (String.eqb n k); [discriminate|]. intros H. now rewrite IH.
Qed.

Lemma dict_get_absent {V} n (d : dict string V) : ~ In n (map fst d) -> dict_get String.eqb n d = None.
Proof.
  intros H. destruct (dict_get String.eqb n d) eqn:E; auto. exfalso. apply H. apply in_map_iff.
  exists (n, v). split; auto. eapply dict_get_In; eauto. apply string_eqb_spec.
Qed.

Lemma dict_get_present {V} n (v : V) d : NoDup (map fst d) -> In (n, v) d -> dict_get String.eqb n d = Some v.
Proof. intros H1 H2. apply dict_get_NoDup; auto. apply string_eqb_spec. Qed.

Lemma dict_get_None_notin {V} n (d : dict string V) : dict_get String.eqb n d = None -> ~ In n (map fst d).
Proof.
  induction d as [|[k x] d IH]; simpl; [tauto|]. destruct (String.eqb n k) eqn:E; [discriminate|].
  intros H [<-|C]; [now rewrite String.eqb_refl in E|]. now apply IH.
Qed.

Lemma NoDup_app_remove_r {A} (l1 l2 : list A) : NoDup (l1 ++ l2) -> NoDup l1.
Proof.
  induction l1 as [|x l1 IH]; intros H; [constructor|]. inversion H; subst. constructor; auto.
  intros C. apply H2. apply in_or_app. now left.
Qed.

Section DataProofs.
  Context {R : Type}.
  Notation dom := (@dom R).
  Notation dataset := (@dataset R).
  Notation op := (@op R).

  (** ** Invariant of reachable datasets *)

  Definition inv (s : dataset) : Prop :=
    NoDup (map fst (ds_names s)) /\ NoDup (map snd (ds_names s)) /\
    forall n k, In (n, k) (ds_names s) -> 1 <= k <= length (ds_domains s).

  Lemma dict_set_snd {V} n (v : V) d x : In x (map snd (dict_set String.eqb n v d)) -> x = v \/ In x (map snd d).
  Proof.
    induction d as [|[k y] d IH]; simpl; [intuition|]. destruct (String.eqb n k); simpl; intuition.
  Qed.

  Lemma dict_set_snd_NoDup {V} n (v : V) d : NoDup (map snd d) -> ~ In v (map snd d) ->
    NoDup (map snd (dict_set String.eqb n v d)).
  Proof.
    induction d as [|[k y] d IH]; simpl; intros ND Hv; [repeat constructor; auto|].
    inversion ND; subst. destruct (String.eqb n k); simpl; [constructor; tauto|].
    constructor; [|apply IH; tauto]. intros C. apply dict_set_snd in C as [->|C]; tauto.
  Qed.

  Lemma inv_add s d n s' : inv s -> add_domain s d n = Ok s' -> inv s'.
  Proof.
    intros [I1 [I2 I3]] H. unfold add_domain in H. apply bind_ok in H as [m [_ H]]. injection H as <-.
    unfold inv. cbn [ds_names ds_domains].
    split; [apply dict_set_NoDup; auto; apply string_eqb_spec|]. split.
    - apply dict_set_snd_NoDup; auto. intros C. apply in_map_iff in C as [[q k] [E C]]. simpl in E. specialize (I3 _ _ C). lia.
    - intros q k C. rewrite app_length. cbn [length].
      assert (G : In k (map snd (dict_set String.eqb m (length (ds_domains s) + 1) (ds_names s)))) by (apply in_map_iff; exists (q, k); auto).
      apply dict_set_snd in G as [->|G]; [lia|]. apply in_map_iff in G as [[q' k'] [E G]]. simpl in E; subst. specialize (I3 _ _ G). lia.
  Qed.

  Lemma inv_merge_names other m names : forall s s', inv s -> merge_names s other m names = Ok s' -> inv s'.
  Proof.
    induction names as [|n names IH]; intros s s' I H; cbn [merge_names] in H; [now injection H as <-|].
    apply bind_ok in H as [d [_ H]]. destruct (d_y d); [|discriminate]. apply bind_ok in H as [s1 [H1 H]].
    eapply IH; [|exact H]. eapply inv_add; eauto.
  Qed.

  Lemma inv_empty : inv (@empty_ds R).
  Proof. split; [constructor|]. split; [constructor|easy]. Qed.

  Lemma run_snoc ops (o : op) s : run (ops ++ [o]) = Ok s -> exists s0, run ops = Ok s0 /\ run_op s0 o = Ok s.
  Proof.
    unfold run. rewrite fold_left_app. cbn [fold_left]. intros H. apply bind_ok in H as [s0 [H1 H2]]. eauto.
  Qed.

  Lemma inv_reachable s : reachable s -> inv s.
  Proof.
    intros [ops H]. revert s H. induction ops as [|o ops IH] using rev_ind; intros s H.
    - injection H as <-. apply inv_empty.
    - apply run_snoc in H as [s0 [H0 H]]. specialize (IH _ H0). destruct o; cbn [run_op] in H.
      + eapply inv_add; eauto.
      + eapply inv_merge_names; eauto.
  Qed.

  (** ** History *)

  Definition tracks (s : dataset) (h : list (string * dom)) : Prop :=
    ds_domains s = map snd h /\ ds_names s = combine (map fst h) (seq 1 (length h)).

  Lemma combine_app_one {A B} (a : list A) (b : list B) x y : length a = length b ->
    combine (a ++ [x]) (b ++ [y]) = combine a b ++ [(x, y)].
  Proof. revert b; induction a as [|u a IH]; intros [|v b] H; simpl in *; try discriminate; auto. f_equal. apply IH; lia. Qed.

  Lemma tracks_fst s h : tracks s h -> map fst (ds_names s) = map fst h.
  Proof.
    intros [_ ->]. assert (L : length (map fst h) = length (seq 1 (length h))) by (rewrite map_length, seq_length; auto).
    revert L. generalize (seq 1 (length h)). generalize (map fst h). clear.
    induction l as [|a l IH]; intros [|b q] L; simpl in *; try discriminate; auto. f_equal. apply IH; lia.
  Qed.

  Lemma tracks_len s h : tracks s h -> length (ds_domains s) = length h /\ length (ds_names s) = length h.
  Proof.
    intros H. split; [destruct H as [-> _]; apply map_length|].
    rewrite <- (map_length fst), (tracks_fst s h H). apply map_length.
  Qed.

  Lemma tracks_extend s h n d : tracks s h -> ~ In n (map fst h) ->
    tracks (mkDS (ds_domains s ++ [d]) (dict_set String.eqb n (length (ds_domains s) + 1) (ds_names s))) (h ++ [(n, d)]).
  Proof.
    intros T Hn. pose proof (tracks_len s h T) as [L1 L2]. pose proof (tracks_fst s h T) as F. destruct T as [T1 T2].
    split; cbn [ds_domains ds_names].
    - rewrite T1, map_app. reflexivity.
    - rewrite dict_set_absent by (apply dict_get_absent; now rewrite F).
      rewrite T2, L1, map_app, app_length. cbn [length map fst].
      replace (length h + 1) with (S (length h)) at 2 by lia. rewrite seq_S.
      rewrite combine_app_one by (rewrite map_length, seq_length; auto).
      f_equal. f_equal. f_equal. lia.
  Qed.

  Lemma tracks_get s h n d : tracks s h -> NoDup (map fst h) -> In (n, d) h -> get_domain s n = Ok d.
  Proof.
    intros T ND Hin. apply In_nth_error in Hin as [i Hi].
    pose proof (tracks_fst s h T) as F. destruct T as [T1 T2].
    assert (Li : i < length h) by (apply nth_error_Some; congruence).
    assert (G : In (n, S i) (ds_names s)).
    { rewrite T2. apply (nth_error_In _ i). apply combine_nth_error.
      - rewrite nth_error_map, Hi. reflexivity.
      - rewrite (nth_error_nth' _ 0) by (rewrite seq_length; auto). rewrite seq_nth; auto. }
    unfold get_domain, dict_getitem. rewrite (dict_get_present n (S i)); auto; [|now rewrite F].
    cbn [bind]. rewrite T1, nth_error_map. replace (S i - 1) with i by lia. rewrite Hi. reflexivity.
  Qed.

  Lemma add_named_ok s h n d s' : tracks s h -> add_domain s d (Some n) = Ok s' ->
    ~ In n (map fst h) /\ tracks s' (h ++ [(n, d)]).
  Proof.
    intros T H. unfold add_domain in H. destruct (dict_get String.eqb n (ds_names s)) eqn:E; [discriminate|].
    cbn [bind] in H. injection H as <-. apply dict_get_None_notin in E. rewrite (tracks_fst s h T) in E.
    split; auto. now apply tracks_extend.
  Qed.

  Lemma merge_tracks other m (Iother : inv other) : forall (l : list (string * nat)) s h s',
    incl l (ds_names other) -> tracks s h -> merge_names s other m (map fst l) = Ok s' ->
    let new := flat_map (fun ni => match nth_error (ds_domains other) (snd ni - 1) with
                            | Some d => [(new_name m (fst ni), d)] | None => [] end) l in
    tracks s' (h ++ new) /\ (NoDup (map fst h) -> NoDup (map fst (h ++ new))) /\
    map fst new = map (fun ni => new_name m (fst ni)) l.
  Proof.
    induction l as [|[n k] l IH]; intros s h s' Hl T H; cbn [map merge_names flat_map fst snd] in *.
    - injection H as <-. rewrite app_nil_r. auto.
    - apply bind_ok in H as [d [Hd H]].
      assert (Hin : In (n, k) (ds_names other)) by (apply Hl; now left).
      destruct Iother as [I1 [I2 I3]]. unfold get_domain, dict_getitem in Hd.
      rewrite (dict_get_present n k) in Hd by auto. cbn [bind] in Hd.
      destruct (nth_error (ds_domains other) (k - 1)) as [d'|] eqn:En; [|discriminate]. injection Hd as ->.
      destruct (d_y d); [|discriminate]. apply bind_ok in H as [s1 [H1 H]].
      fold (new_name m n) in H1. destruct (add_named_ok _ _ _ _ _ T H1) as [N1 T1].
      destruct (IH s1 (h ++ [(new_name m n, d)]) s') as [A [B C]]; auto; [intros x Hx; apply Hl; now right|].
      rewrite <- app_assoc in A, B. cbn [app] in *. split; auto. split.
      + intros ND. apply B. rewrite map_app. cbn [map fst]. apply Permutation_NoDup with (l := new_name m n :: map fst h).
        * apply Permutation_cons_append.
        * now constructor.
      + cbn [map fst]. now rewrite C.
  Qed.

  Definition others_reachable (o : op) : Prop := match o with OMerge other _ => reachable other | _ => True end.

  Lemma history_snoc ops (o : op) : history (ops ++ [o]) = history ops ++ registered_by (history ops) o.
  Proof. unfold history. rewrite fold_left_app. reflexivity. Qed.

  Lemma underscore_inj a b : String.append "_" (string_of_nat a) = String.append "_" (string_of_nat b) -> a = b.
  Proof. cbn. intros H. injection H as H. now apply string_of_nat_inj. Qed.

  Lemma run_tracks ops s : run ops = Ok s -> Forall others_reachable ops -> NoDup (map fst (history ops)) ->
    tracks s (history ops).
  Proof.
    revert s. induction ops as [|o ops IH] using rev_ind; intros s H Ho ND.
    - injection H as <-. split; reflexivity.
    - apply run_snoc in H as [s0 [H0 H]]. apply Forall_app in Ho as [Ho1 Ho2]. apply Forall_inv in Ho2.
      rewrite history_snoc in *. rewrite map_app in ND. specialize (IH s0 H0 Ho1 (NoDup_app_remove_r _ _ ND)).
      destruct o as [d [n|]|other m]; cbn [run_op registered_by] in *.
      + eapply add_named_ok; eauto.
      + unfold add_domain in H. cbn [bind] in H. injection H as <-.
        pose proof (tracks_len _ _ IH) as [L1 L2]. unfold auto_domain_name. rewrite L2.
        apply tracks_extend; auto. cbn [map fst] in ND. apply NoDup_remove_2 in ND. now rewrite app_nil_r in ND.
      + unfold merge in H. apply (merge_tracks other m (inv_reachable _ Ho2) (ds_names other)) with (h := history ops) in H; auto.
        * apply H.
        * apply incl_refl.
  Qed.

  Lemma history_distinct ops s : run ops = Ok s -> Forall others_reachable ops ->
    (forall o n, In o ops -> In n (explicit_names o) -> ~ looks_generated n) ->
    NoDup (map fst (history ops)) /\
    (forall k, In (String.append "_" (string_of_nat k)) (map fst (history ops)) -> k <= length (history ops)).
  Proof.
    revert s. induction ops as [|o ops IH] using rev_ind; intros s H Ho He.
    - split; [constructor|easy].
    - apply run_snoc in H as [s0 [H0 H]]. apply Forall_app in Ho as [Ho1 Ho2]. apply Forall_inv in Ho2.
      rewrite history_snoc. destruct (IH s0 H0 Ho1) as [ND Hk].
      { intros o' n Ho' Hn. apply (He o' n); auto. apply in_or_app. now left. }
      pose proof (run_tracks ops s0 H0 Ho1 ND) as T.
      assert (Heo : forall n, In n (explicit_names o) -> ~ looks_generated n).
      { intros n Hn. apply (He o n); auto. apply in_or_app. right. now left. }
      destruct o as [d [n|]|other m]; cbn [run_op registered_by explicit_names] in *.
      + destruct (add_named_ok _ _ _ _ _ T H) as [N1 T1]. split.
        * rewrite map_app. cbn [map fst]. apply Permutation_NoDup with (l := n :: map fst (history ops)).
          -- apply Permutation_cons_append.
          -- now constructor.
        * intros k. rewrite map_app, in_app_iff, app_length. cbn [map fst length]. intros [C|[C|[]]].
          -- specialize (Hk k C). lia.
          -- exfalso. apply (Heo n); [now left|]. exists k. congruence.
      + set (nm := String.append "_" (string_of_nat (length (history ops) + 1))).
        assert (Nn : ~ In nm (map fst (history ops))) by (intros C; specialize (Hk _ C); lia).
        split.
        * rewrite map_app. cbn [map fst]. apply Permutation_NoDup with (l := nm :: map fst (history ops)).
          -- apply Permutation_cons_append.
          -- now constructor.
        * intros k. rewrite map_app, in_app_iff, app_length. cbn [map fst length]. intros [C|[C|[]]].
          -- specialize (Hk k C). lia.
          -- apply underscore_inj in C. lia.
      + unfold merge in H.
        apply (merge_tracks other m (inv_reachable _ Ho2) (ds_names other)) with (h := history ops) in H; auto; [|apply incl_refl].
        destruct H as [A [B C]]. split; [now apply B|].
        intros k. rewrite map_app, in_app_iff, app_length, C. intros [D|D].
        * specialize (Hk k D). lia.
        * exfalso. apply (Heo _ D). now exists k.
  Qed.

  (** ** Packing *)

  Definition lookup_ok (s : dataset) (n : string) (kd : nat * dom) : Prop := known s n (fst kd) (snd kd).

  Lemma known_get s n k d : inv s -> known s n k d ->
    dict_getitem String.eqb n (ds_names s) = Ok k /\ get_domain s n = Ok d.
  Proof.
    intros [I1 _] [H1 [H2 H3]]. unfold get_domain, dict_getitem. rewrite (dict_get_present n k) by auto.
    cbn [bind]. rewrite H3. auto.
  Qed.

  Definition src_labels (names : list string) (kds : list (nat * dom)) : list (string * Z) :=
    map (fun p => (fst p, Z.of_nat (fst (snd p)))) (combine names kds).
  Definition tgt_labels (names : list string) (kds : list (nat * dom)) : list (string * Z) :=
    map (fun p => (fst p, (- Z.of_nat (fst (snd p)))%Z)) (combine names kds).

  Lemma labels_plain (d : dom) : snd (labels_of d) = plain_labels d.
  Proof. unfold labels_of, plain_labels. destruct (d_y d); reflexivity. Qed.

  Lemma pack_sources_ok s names kds : inv s -> Forall2 (lookup_ok s) names kds -> forall a,
    pack_sources s names a = Ok (mkAcc
      (p_X a ++ concat (map (fun kd => d_X (snd kd)) kds))
      (p_y a ++ concat (map (fun kd => plain_labels (snd kd)) kds))
      (p_sd a ++ concat (map (fun kd => repeat (Z.of_nat (fst kd)) (length (plain_labels (snd kd)))) kds))
      (dict_update String.eqb (p_names a) (src_labels names kds))).
  Proof.
    intros I F. induction F as [|n [k d] names kds Hn F IH]; intros a; cbn [pack_sources].
    - cbn. rewrite !app_nil_r. now destruct a.
    - destruct (known_get s n k d I Hn) as [E1 E2]. rewrite E1, E2. cbn [bind]. rewrite IH. cbn [p_X p_y p_sd p_names].
      rewrite labels_plain. cbn [map concat fst snd]. rewrite <- !app_assoc. reflexivity.
  Qed.

  Lemma pack_targets_unmasked s names kds : inv s -> Forall2 (lookup_ok s) names kds -> forall st a,
    pack_targets s false st names a = Ok (mkAcc
      (p_X a ++ concat (map (fun kd => d_X (snd kd)) kds))
      (p_y a ++ concat (map (fun kd => plain_labels (snd kd)) kds))
      (p_sd a ++ concat (map (fun kd => repeat (- Z.of_nat (fst kd))%Z (length (plain_labels (snd kd)))) kds))
      (dict_update String.eqb (p_names a) (tgt_labels names kds))).
  Proof.
    intros I F. induction F as [|n [k d] names kds Hn F IH]; intros st a; cbn [pack_targets].
    - cbn. rewrite !app_nil_r. now destruct a.
    - destruct (known_get s n k d I Hn) as [E1 E2]. rewrite E1, E2. cbn [bind]. rewrite IH. cbn [p_X p_y p_sd p_names].
      rewrite labels_plain. cbn [map concat fst snd]. rewrite <- !app_assoc. reflexivity.
  Qed.

  (** After the first target domain the mask is settled. *)
  Definition settled (m : val) (st : option val * option ydt) : Prop :=
    fst st = Some m /\ (snd st = Some YInt -> m = VNum (inject_Z (-1))).

  Lemma pack_targets_settled s names kds m : inv s -> Forall2 (lookup_ok s) names kds -> forall st a, settled m st ->
    pack_targets s true st names a = Ok (mkAcc
      (p_X a ++ concat (map (fun kd => d_X (snd kd)) kds))
      (p_y a ++ concat (map (fun kd => repeat m (length (d_X (snd kd)))) kds))
      (p_sd a ++ concat (map (fun kd => repeat (- Z.of_nat (fst kd))%Z (length (d_X (snd kd)))) kds))
      (dict_update String.eqb (p_names a) (tgt_labels names kds))).
  Proof.
    intros I F. induction F as [|n [k d] names kds Hn F IH]; intros st a Hs; cbn [pack_targets].
    - cbn. rewrite !app_nil_r. now destruct a.
    - destruct (known_get s n k d I Hn) as [E1 E2]. rewrite E1, E2. cbn [bind].
      assert (E : mask_target st d = (repeat m (length (d_X d)), st)).
      { destruct Hs as [S1 S2]. unfold mask_target. rewrite S1. f_equal. f_equal.
        destruct (snd st) as [[| |]|]; auto. rewrite S2; reflexivity. }
      rewrite E. rewrite IH by auto. cbn [p_X p_y p_sd p_names map concat fst snd].
      rewrite repeat_length, <- !app_assoc. reflexivity.
  Qed.

  Lemma pack_targets_masked s names kds mask m : inv s -> Forall2 (lookup_ok s) names kds ->
    mask_value mask (map snd kds) = Some m -> forall a,
    pack_targets s true (mask, None) names a = Ok (mkAcc
      (p_X a ++ concat (map (fun kd => d_X (snd kd)) kds))
      (p_y a ++ concat (map (fun kd => repeat m (length (d_X (snd kd)))) kds))
      (p_sd a ++ concat (map (fun kd => repeat (- Z.of_nat (fst kd))%Z (length (d_X (snd kd)))) kds))
      (dict_update String.eqb (p_names a) (tgt_labels names kds))).
  Proof.
    intros I F Hm a. destruct mask as [u|].
    - injection Hm as ->. apply pack_targets_settled; auto. split; simpl; auto. discriminate.
    - destruct F as [|n [k d] names kds Hn F]; [discriminate|]. cbn [pack_targets].
      destruct (known_get s n k d I Hn) as [E1 E2]. rewrite E1, E2. cbn [bind].
      cbn [map snd mask_value] in Hm. unfold mask_target. cbn [fst snd]. unfold labels_of.
      assert (G : exists st', settled m st' /\ 
        match fst (match d_y d with Some y => y | None => (YInt, repeat (VNum (inject_Z (-1))) (length (d_X d))) end) with
        | YInt => (repeat (VNum (inject_Z (-1))) (length (d_X d)), (Some (VNum (inject_Z (-1))), Some YInt))
        | YFloat => (repeat VNan (length (d_X d)), (Some VNan, Some YFloat))
        | YOther => (snd (match d_y d with Some y => y | None => (YInt, repeat (VNum (inject_Z (-1))) (length (d_X d))) end), (None, None))
        end = (repeat m (length (d_X d)), st')).
      { destruct (d_y d) as [[[| |] y]|]; cbn [fst snd] in *; try discriminate; injection Hm as <-;
          eexists; (split; [|reflexivity]); split; simpl; auto; discriminate. }
      destruct G as [st' [G1 G2]]. rewrite G2. rewrite (pack_targets_settled s names kds m I F st' _ G1).
      cbn [p_X p_y p_sd p_names map concat fst snd]. rewrite repeat_length, <- !app_assoc. reflexivity.
  Qed.

  Lemma known_or_not (s : dataset) names : inv s ->
    (exists kds, Forall2 (lookup_ok s) names kds) \/ (exists n, In n names /\ ~ In n (map fst (ds_names s))).
  Proof.
    intros I. induction names as [|n names IH]; [left; exists []; constructor|].
    destruct IH as [[kds IH]|[n' [A B]]]; [|right; exists n'; split; auto; now right].
    destruct (dict_get String.eqb n (ds_names s)) as [k|] eqn:E.
    - left. assert (G : In (n, k) (ds_names s)) by (eapply dict_get_In; eauto; apply string_eqb_spec).
      destruct I as [_ [_ I3]]. specialize (I3 _ _ G).
      destruct (nth_error_lt_some (ds_domains s) (k - 1) ltac:(lia)) as [d Hd].
      exists ((k, d) :: kds). constructor; auto. split; auto. split; [simpl; lia|auto].
    - right. exists n. split; [now left|]. now apply dict_get_None_notin.
  Qed.

  Lemma pack_sources_unknown s names : inv s -> (exists n, In n names /\ ~ In n (map fst (ds_names s))) ->
    forall a, pack_sources s names a = Err KeyError.
  Proof.
    intros I. induction names as [|n names IH]; intros [n' [A B]] a; [easy|]. cbn [pack_sources].
    unfold dict_getitem. destruct (dict_get String.eqb n (ds_names s)) as [k|] eqn:E; [|reflexivity].
    assert (G : In (n, k) (ds_names s)) by (eapply dict_get_In; eauto; apply string_eqb_spec).
    destruct A as [->|A]; [exfalso; apply B; apply in_map_iff; exists (n', k); auto|].
    assert (K : exists d, known s n k d).
    { destruct I as [_ [_ I3]]. specialize (I3 _ _ G). destruct (nth_error_lt_some (ds_domains s) (k - 1) ltac:(lia)) as [d Hd].
      exists d. split; auto. split; [lia|auto]. }
    destruct K as [d K]. destruct (known_get s n k d I K) as [_ E2]. rewrite E2. cbn [bind]. apply IH. eauto.
  Qed.

  Lemma pack_targets_unknown s b names : inv s -> (exists n, In n names /\ ~ In n (map fst (ds_names s))) ->
    forall st a, pack_targets s b st names a = Err KeyError.
  Proof.
    intros I. induction names as [|n names IH]; intros [n' [A B]] st a; [easy|]. cbn [pack_targets].
    unfold dict_getitem. destruct (dict_get String.eqb n (ds_names s)) as [k|] eqn:E; [|reflexivity].
    assert (G : In (n, k) (ds_names s)) by (eapply dict_get_In; eauto; apply string_eqb_spec).
    destruct A as [->|A]; [exfalso; apply B; apply in_map_iff; exists (n', k); auto|].
    assert (K : exists d, known s n k d).
    { destruct I as [_ [_ I3]]. specialize (I3 _ _ G). destruct (nth_error_lt_some (ds_domains s) (k - 1) ltac:(lia)) as [d Hd].
      exists d. split; auto. split; [lia|auto]. }
    destruct K as [d K]. destruct (known_get s n k d I K) as [_ E2]. rewrite E2. cbn [bind].
    destruct (if b then mask_target st d else (snd (labels_of d), st)) as [y st']. apply IH. eauto.
  Qed.

  Lemma plain_labels_length (d : dom) : aligned d -> length (plain_labels d) = length (d_X d).
  Proof. unfold aligned, plain_labels. destruct (d_y d); auto. intros _. apply repeat_length. Qed.

  (** ** Rows of one label in a concatenation *)

  Lemma rows_of_app {A} p sd1 sd2 (x1 x2 : list A) : length sd1 = length x1 ->
    rows_of p (sd1 ++ sd2) (x1 ++ x2) = rows_of p sd1 x1 ++ rows_of p sd2 x2.
  Proof. intros H. rewrite !rows_of_select, map_app. apply select_app. now rewrite map_length. Qed.

  Lemma rows_of_repeat {A} p c (xs : list A) : rows_of p (repeat c (length xs)) xs = if p c then xs else [].
  Proof.
    rewrite rows_of_select. induction xs as [|x xs IH]; simpl; [now destruct (p c)|].
    rewrite IH. destruct (p c); auto.
  Qed.

  Lemma rows_of_blocks {A B} (lab : B -> Z) (blk : B -> list A) (l : list B) c :
    NoDup (map lab l) ->
    rows_of (Z.eqb c) (concat (map (fun b => repeat (lab b) (length (blk b))) l)) (concat (map blk l)) =
    match find (fun b => (c =? lab b)%Z) l with Some b => blk b | None => [] end.
  Proof.
    induction l as [|b l IH]; intros ND; [reflexivity|]. cbn [map concat find].
    rewrite rows_of_app by apply repeat_length. rewrite rows_of_repeat. inversion ND; subst. rewrite IH by auto.
    destruct (Z.eqb_spec c (lab b)) as [->|N]; [|reflexivity].
    destruct (find _ l) eqn:E; [|apply app_nil_r]. exfalso. apply find_some in E as [E1 E2].
    apply Z.eqb_eq in E2. apply H1. rewrite E2. now apply in_map.
  Qed.

  (** ** select_domain *)

  Lemma select_domain_fold names sd ns ks0 m0 :
    m0 = map (fun x => existsb (Z.eqb x) ks0) sd ->
    fold_left (fun acc n' => a <- acc ;; m <- (k <- dict_getitem String.eqb n' names ;; Ok (map (fun x => (x =? k)%Z) sd)) ;;
        Ok (map (fun p => fst p || snd p) (combine a m))) ns (Ok m0) =
    (ks <- mapM (fun n => dict_getitem String.eqb n names) ns ;; Ok (map (fun x => existsb (Z.eqb x) (ks0 ++ ks)) sd)).
  Proof.
    revert ks0 m0. induction ns as [|n ns IH]; intros ks0 m0 Hm.
    - cbn. now rewrite app_nil_r, Hm.
    - cbn [fold_left mapM]. destruct (dict_getitem String.eqb n names) as [k|e] eqn:E.
      + cbn [bind]. rewrite (IH (ks0 ++ [k])).
        * destruct (mapM _ ns); cbn [bind]; auto. f_equal. apply map_ext. intros x. now rewrite <- app_assoc.
        * rewrite Hm. clear. induction sd as [|x sd IH]; simpl; auto. rewrite IH. f_equal.
          rewrite existsb_app. simpl. now rewrite orb_false_r.
      + cbn [bind]. clear. induction ns as [|n ns IH]; simpl; auto.
  Qed.
End DataProofs.
