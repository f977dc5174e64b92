(** LeaveOneDomainOut, StratifiedDomainShuffleSplit, DomainShuffleSplit. *)
From Coq Require Import List ZArith QArith Qround Bool Arith Lia Lqa Sorting.Permutation Sorting.Sorted.
From Verif Require Import Np NpFacts Labels Spec SpecFacts UtilsModel UtilsSpec UtilsProofs UtilsProofs2 SelectModel
  SplitModel SplitSpec SplitProofs.
Import ListNotations.
Local Open Scope nat_scope.

Lemma labels_where_unique p sd : labels_where p sd (unique (filter p sd)).
Proof.
  split; [apply unique_sorted|]. intros d. rewrite unique_In, filter_In. tauto.
Qed.
Lemma labels_where_ext p sd a b : labels_where p sd a -> labels_where p sd b -> a = b.
Proof.
  intros [H1 H2] [H3 H4]. apply StronglySorted_Zlt_ext; auto. intros x. rewrite H2, H4. tauto.
Qed.

(** ** Indexing through a sub-selection *)
Section Sub.
  Variables (sd : list Z) (m : Z -> bool).
  Let idx := positions m sd.
  Let f (i : nat) := nth i idx 0.

  Lemma sub_take : np_take idx sd = Ok (filter m sd).
  Proof.
    unfold idx. rewrite positions_flatnonzero, np_take_flatnonzero by apply map_length. now rewrite select_self.
  Qed.
  Lemma sub_len : length (filter m sd) = length idx.
  Proof. unfold idx. now rewrite positions_length. Qed.

  Lemma sub_label i : i < length idx -> label (filter m sd) i = label sd (f i).
  Proof.
    intros Hi. pose proof sub_take as H. apply np_take_ok_iff in H.
    assert (G : forall k a b, Forall2 (fun i y => nth_error sd i = Some y) a b -> k < length a ->
      nth k b 0%Z = nth (nth k a 0) sd 0%Z).
    { clear. intros k a b H. revert k. induction H as [|x y a b H1 H IH]; intros [|k] L; simpl in *; try lia.
      - symmetry. now apply nth_error_nth.
      - apply IH. lia. }
    apply (G i _ _ H Hi).
  Qed.

  Lemma f_in i : i < length idx -> In (f i) idx.
  Proof. intros H. now apply nth_In. Qed.
  Lemma f_inj i j : i < length idx -> j < length idx -> f i = f j -> i = j.
  Proof.
    intros Hi Hj H. pose proof (positions_NoDup m sd) as N. rewrite (NoDup_nth _ 0) in N. now apply N.
  Qed.

  Lemma sub_positions q :
    Permutation (map f (positions q (filter m sd))) (positions (fun x => m x && q x) sd).
  Proof.
    assert (L : forall i, In i (positions q (filter m sd)) -> i < length idx).
    { intros i Hi. apply positions_label in Hi as [Hi _]. now rewrite sub_len in Hi. }
    apply NoDup_Permutation.
    - assert (G : forall l, NoDup l -> (forall i, In i l -> i < length idx) -> NoDup (map f l)).
      { induction 1 as [|a l Ha Hn IH]; simpl; intros Hl; constructor.
        - intros C. apply in_map_iff in C as [b [E Hb]]. apply f_inj in E; auto. congruence.
        - apply IH. auto. }
      apply G; [apply positions_NoDup|exact L].
    - apply positions_NoDup.
    - intros j. rewrite in_map_iff. split.
      + intros [i [<- Hi]]. pose proof (L _ Hi) as Hl. apply positions_label in Hi as [_ Hq].
        rewrite sub_label in Hq by auto. pose proof (f_in _ Hl) as Hj. apply positions_label in Hj as [Hj Hm].
        apply positions_label. split; auto. now rewrite Hm, Hq.
      + intros Hj. apply positions_label in Hj as [Hj H]. apply andb_true_iff in H as [Hm Hq].
        assert (Hin : In j idx) by (apply positions_label; auto).
        apply (In_nth _ _ 0) in Hin as [i [Hi E]]. exists i. split; auto.
        apply positions_label. rewrite sub_len. split; auto. rewrite sub_label by auto. unfold f. now rewrite E.
  Qed.
End Sub.

Lemma how_many_filter (m q : Z -> bool) sd : how_many q (filter m sd) = how_many (fun x => m x && q x) sd.
Proof.
  unfold how_many. induction sd as [|x sd IH]; simpl; auto.
  destruct (m x); simpl; [destruct (q x); simpl; auto|]; auto.
Qed.

Lemma how_many_ext_in {A} (p q : A -> bool) l : (forall x, In x l -> p x = q x) -> how_many p l = how_many q l.
Proof. intros H. unfold how_many. f_equal. now apply filter_ext_in. Qed.

Lemma positions_ext_in (p q : Z -> bool) l : (forall x, In x l -> p x = q x) -> positions p l = positions q l.
Proof.
  intros H. rewrite !positions_flatnonzero. f_equal. now apply map_ext_in.
Qed.

Lemma map_slice {A B} (f : A -> B) a b l : map f (slice a b l) = slice a b (map f l).
Proof. unfold slice. now rewrite <- firstn_map, <- skipn_map. Qed.

Lemma lodo_mask_positions domains d sd : flatnonzero (lodo_mask domains d sd) =
  positions (fun x => existsb (fun domain => (x =? (if (domain =? d)%Z then - domain else domain))%Z) domains) sd.
Proof. now rewrite positions_flatnonzero. Qed.

Lemma lodo_sel domains d sd x : labels_where is_source sd domains -> (0 < d)%Z -> In d domains -> In x sd ->
  existsb (fun domain => (x =? (if (domain =? d)%Z then - domain else domain))%Z) domains
  = other_source d x || Z.eqb (- d) x.
Proof.
  intros [_ HD] Hdp Hd Hx.
  apply eq_true_iff_eq. rewrite existsb_exists, orb_true_iff. unfold other_source.
  rewrite andb_true_iff, negb_true_iff, Z.leb_le, Z.eqb_neq, Z.eqb_eq. split.
  - intros [e [He Hxe]]. apply Z.eqb_eq in Hxe. destruct (Z.eqb_spec e d) as [->|Hn].
    + now right.
    + left. subst x. split; auto. apply HD in He as [_ He]. unfold is_source in He. now apply Z.leb_le.
  - intros [[H1 H2]|H].
    + exists x. split; [apply HD; split; auto; now apply Z.leb_le|].
      destruct (Z.eqb_spec x d); [easy|apply Z.eqb_refl].
    + exists d. split; auto. rewrite Z.eqb_refl. apply Z.eqb_eq. lia.
Qed.

Lemma part2_map f sp tp a b c d :
  part2 (map f sp) (map f tp) a b c d =
  (map f (fst (part2 sp tp a b c d)), map f (snd (part2 sp tp a b c d))).
Proof. unfold part2; simpl. rewrite !map_app, !map_slice, !firstn_map. reflexivity. Qed.

Lemma np_take_map_nth (idx : list nat) l r : np_take l idx = Ok r -> r = map (fun i => nth i idx 0) l.
Proof.
  intros H. apply np_take_ok_iff in H. induction H as [|i y l r H1 H IH]; simpl; auto.
  f_equal; auto. symmetry. now apply nth_error_nth.
Qed.

Lemma validate_zero ts tr : validate_shuffle_split 0 ts tr = Err ValueError.
Proof.
  destruct (validate_shuffle_split 0 ts tr) as [[a b]|e] eqn:E.
  - apply validate_ok in E as (_ & (H1 & _ & H2 & _) & _). lia.
  - f_equal. now apply validate_err in E.
Qed.

(** Holding out a domain labelled 0 leaves no target. *)
Lemma lodo_one_zero sd domains ts tr p : labels_where is_source sd domains ->
  lodo_one sd domains ts tr 0 p = Err ValueError.
Proof.
  intros HD. unfold lodo_one. rewrite lodo_mask_positions.
  set (m := fun x => existsb (fun domain => (x =? (if (domain =? 0)%Z then - domain else domain))%Z) domains).
  rewrite (sub_take sd m). cbn [bind].
  destruct (check_X_domain (length (positions m sd)) (SDArr (filter m sd)) all_flags) as [sd2|e] eqn:E.
  - cbn [bind]. apply check_all_flags in E as (E0 & -> & EL). simpl eff_domain in *.
    assert (T0 : how_many is_target (filter m sd) = 0).
    { apply how_many_0. intros x Hx. apply filter_In in Hx as [_ Hx]. apply existsb_exists in Hx as [e [He Hx]].
      apply Z.eqb_eq in Hx. apply (proj2 HD) in He as [_ He]. unfold is_source in He. apply Z.leb_le in He.
      unfold is_target. apply Z.ltb_ge. destruct (Z.eqb_spec e 0); lia. }
    unfold iter_indices, extract_source_indices. rewrite EL.
    destruct (Nat.eqb_spec (length (positions m sd)) 0) as [C|C]; [reflexivity|]. cbn [bind].
    assert (E2 : flatnonzero (map negb (source_mask (filter m sd))) = positions is_target (filter m sd)).
    { rewrite positions_flatnonzero. f_equal. unfold source_mask. rewrite map_map. apply map_ext. intros x.
      now rewrite is_target_negb. }
    rewrite E2, (positions_length is_target), T0, validate_zero. 
    destruct (validate_shuffle_split _ ts tr) as [q|e] eqn:E3; [reflexivity|]. cbn [bind].
    f_equal. now apply validate_err in E3.
  - cbn [bind]. f_equal. now apply check_X_domain_err in E.
Qed.

Lemma lodo_one_ok sd domains ts tr d p r :
  labels_where is_source sd domains -> In d domains ->
  is_perm (how_many (other_source d) sd) (fst p) -> is_perm (how_many (Z.eqb (- d)) sd) (snd p) ->
  lodo_one sd domains ts tr d p = Ok r -> lodo_split sd ts tr d r.
Proof.
  intros HD Hd P1 P2 H.
  assert (Hdp : (0 < d)%Z).
  { destruct (proj1 (proj2 HD d) Hd) as [_ Hs]. unfold is_source in Hs. apply Z.leb_le in Hs.
    assert (d <> 0)%Z; [intros -> |lia]. rewrite lodo_one_zero in H by auto. discriminate. }
  unfold lodo_one in H. rewrite lodo_mask_positions in H.
  set (m := fun x => existsb (fun domain => (x =? (if (domain =? d)%Z then - domain else domain))%Z) domains) in H.
  rewrite (sub_take sd m) in H. cbn [bind] in H.
  apply bind_ok in H as [sd2 [H2 H]]. apply check_all_flags in H2 as (_ & E2 & _). simpl in E2. subst sd2.
  assert (Hm : forall x, In x sd -> m x = other_source d x || Z.eqb (- d) x) by (intros; now apply (lodo_sel _ _ sd)).
  assert (Ms : forall x, In x sd -> m x && is_source x = other_source d x).
  { intros x Hx. rewrite Hm by auto. unfold other_source, is_source.
    destruct (Z.leb_spec 0 x), (Z.eqb_spec x d), (Z.eqb_spec (- d) x); auto; lia. }
  assert (Mt : forall x, In x sd -> m x && is_target x = Z.eqb (- d) x).
  { intros x Hx. rewrite Hm by auto. unfold other_source, is_target.
    destruct (Z.leb_spec 0 x), (Z.eqb_spec x d), (Z.eqb_spec (- d) x), (Z.ltb_spec x 0); auto; lia. }
  assert (Cs : how_many is_source (filter m sd) = how_many (other_source d) sd).
  { rewrite how_many_filter. now apply how_many_ext_in. }
  assert (Ct : how_many is_target (filter m sd) = how_many (Z.eqb (- d)) sd).
  { rewrite how_many_filter. now apply how_many_ext_in. }
  apply bind_ok in H as [l [H1 H]].
  apply iter_indices_ok in H1.
  2:{ intros q [<-|[]]. now rewrite Cs, Ct. }
  destruct H1 as (a & b & c & e & _ & S1 & _ & S2 & F). rewrite Cs in S1. rewrite Ct in S2.
  inversion F as [|? q ? ? (sp & tp & Es & Et & ->) F']; subst. inversion F'; subst.
  destruct (part2 sp tp a b c e) as [train test] eqn:EP.
  apply bind_ok in H as [tr' [T1 H]]. apply bind_ok in H as [te' [T2 H]]. injection H as <-.
  set (f := fun i => nth i (positions m sd) 0).
  apply np_take_map_nth in T1, T2. fold f in T1, T2. change (fun i => nth i (positions m sd) 0) with f in T1, T2.
  set (sp' := map f sp). set (tp' := map f tp).
  assert (EP' : part2 sp' tp' a b c e = (tr', te')).
  { unfold sp', tp'. rewrite part2_map, EP. simpl. congruence. }
  assert (Qs : Permutation sp' (positions (other_source d) sd)).
  { unfold sp'. eapply perm_trans; [apply Permutation_map, Es|].
    eapply perm_trans; [apply sub_positions|]. rewrite (positions_ext_in _ _ _ Ms). apply Permutation_refl. }
  assert (Qt : Permutation tp' (positions (Z.eqb (- d)) sd)).
  { unfold tp'. eapply perm_trans; [apply Permutation_map, Et|].
    eapply perm_trans; [apply sub_positions|]. rewrite (positions_ext_in _ _ _ Mt). apply Permutation_refl. }
  assert (Is : forall i, In i sp' -> i < length sd /\ other_source d (label sd i) = true).
  { intros i Hi. apply positions_label. eapply Permutation_in; eauto. }
  assert (It : forall i, In i tp' -> i < length sd /\ label sd i = (- d)%Z).
  { intros i Hi. eapply Permutation_in in Hi; [|exact Qt]. apply positions_label in Hi as [? Hi]. split; auto.
    apply Z.eqb_eq in Hi. lia. }
  assert (Os : forall x, other_source d x = true -> (0 <= x)%Z /\ x <> d).
  { unfold other_source. intros x Hx. apply andb_true_iff in Hx as [Hx1 Hx2].
    apply Z.leb_le in Hx1. apply negb_true_iff, Z.eqb_neq in Hx2. auto. }
  assert (Ls : length sp' = how_many (other_source d) sd) by (rewrite (Permutation_length Qs); apply positions_length).
  assert (Lt : length tp' = how_many (Z.eqb (- d)) sd) by (rewrite (Permutation_length Qt); apply positions_length).
  assert (Ss := S1). assert (St := S2). destruct S1 as (_ & _ & B1 & _). destruct S2 as (_ & _ & B2 & _).
  assert (C := part2_clean (length sd) sp' tp' a b c e).
  assert (P := part2_perm sp' tp' a b c e).
  assert (K1 := count_side (fun i => other_source d (label sd i)) sp' tp' a b c e).
  assert (K2 := count_side2 (fun i => Z.eqb (- d) (label sd i)) sp' tp' a b c e).
  rewrite EP' in C, P, K1, K2.
  assert (IN : forall i, In i (tr' ++ te') -> In i sp' \/ In i tp').
  { intros i Hi. apply (Permutation_in _ P) in Hi. apply in_app_or in Hi as [Hi|Hi]; apply firstn_incl in Hi; auto. }
  unfold lodo_split. split; [|split; [|split; [|split; [|split]]]].
  - apply C.
    + eapply Permutation_NoDup; [apply Permutation_sym, Qs|apply positions_NoDup].
    + eapply Permutation_NoDup; [apply Permutation_sym, Qt|apply positions_NoDup].
    + intros x G1 G2. apply Is in G1 as [_ G1]. apply Os in G1. apply It in G2 as [_ G2]. lia.
    + intros i Hi. now apply Is.
    + intros i Hi. now apply It.
  - intros i Hi. apply IN in Hi as [Hi|Hi].
    + apply Is in Hi as [_ Hi]. now apply Os in Hi.
    + apply It in Hi as [_ ->]. lia.
  - intros i Hi Hneg. apply IN in Hi as [Hi|Hi].
    + apply Is in Hi as [_ Hi]. apply Os in Hi. lia.
    + now apply It in Hi as [_ ->].
  - unfold exact_on, count_in. destruct K1 as [-> ->]; auto.
    + intros i Hi. now apply Is.
    + intros i Hi. apply It in Hi as [_ ->]. unfold other_source. destruct (Z.leb_spec 0 (- d)); auto; lia.
    + lia.
  - unfold exact_on, count_in. destruct K2 as [-> ->]; auto.
    + intros i Hi. apply Is in Hi as [_ Hi]. apply Os in Hi. apply Z.eqb_neq. lia.
    + intros i Hi. apply It in Hi as [_ ->]. apply Z.eqb_refl.
    + lia.
  - intros Hc i Hi H1 H2.
    assert (E : a + b = how_many (other_source d) sd).
    { destruct Ss as (_ & _ & _ & G1 & G2 & _). destruct Hc as [-> | ->]; [exact G1|exact G2]. }
    eapply Permutation_in; [apply Permutation_sym, P|]. apply in_or_app. left.
    rewrite firstn_all2 by lia. eapply Permutation_in; [apply Permutation_sym, Qs|].
    apply positions_label. split; auto. unfold other_source. apply andb_true_iff.
    split; [now apply Z.leb_le|]. apply negb_true_iff. now apply Z.eqb_neq.
Qed.

Lemma lodo_ok n sda mx ts tr dperm perms r doms :
  let sd := eff_domain n sda in
  labels_where is_source sd doms -> is_perm (length doms) dperm ->
  length perms <= Nat.min mx (length doms) ->
  (forall k i d p, nth_error dperm k = Some i -> nth_error doms i = Some d -> nth_error perms k = Some p ->
     is_perm (how_many (other_source d) sd) (fst p) /\ is_perm (how_many (Z.eqb (- d)) sd) (snd p)) ->
  leave_one_domain_out n sda mx ts tr dperm perms = Ok r ->
  exists ds, NoDup ds /\ incl ds doms /\ length ds = length perms /\ Forall2 (lodo_split sd ts tr) ds r.
Proof.
  intros sd HD HP HL HPs H. unfold leave_one_domain_out in H.
  apply bind_ok in H as [sd1 [H1 H]]. apply check_all_flags in H1 as (_ & -> & L1). fold sd in L1, H.
  assert (ED : lodo_domains sd = doms).
  { eapply labels_where_ext; [apply labels_where_unique|exact HD]. }
  rewrite ED in H. clear ED.
  set (di0 := if mx <? length doms then firstn mx dperm else dperm) in H.
  assert (Ldp : length dperm = length doms) by (rewrite (Permutation_length HP); apply seq_length).
  assert (Ldi0 : length perms <= length di0).
  { unfold di0. destruct (Nat.ltb_spec mx (length doms)); [rewrite firstn_length|]; lia. }
  assert (Ndi0 : NoDup di0).
  { assert (NoDup dperm) by (eapply Permutation_NoDup; [apply Permutation_sym, HP|apply seq_NoDup]).
    unfold di0. destruct (mx <? length doms); auto. now apply firstn_NoDup. }
  assert (Edi0 : forall k i, nth_error di0 k = Some i -> nth_error dperm k = Some i).
  { intros k i. unfold di0. destruct (mx <? length doms); auto. intros E.
    rewrite <- (firstn_skipn mx dperm). rewrite nth_error_app1; auto. apply nth_error_Some. congruence. }
  assert (Bdi0 : forall i, In i di0 -> i < length doms).
  { intros i Hi. assert (Hi' : In i dperm).
    { unfold di0 in Hi. destruct (mx <? length doms); auto. now apply firstn_incl in Hi. }
    eapply Permutation_in in Hi'; [|exact HP]. apply in_seq in Hi'. lia. }
  clearbody di0 sd.
  assert (Ec : combine di0 perms = combine (firstn (length perms) di0) perms).
  { clear. revert perms; induction di0 as [|i di0 IH]; intros [|p perms]; simpl; auto. now rewrite <- IH. }
  rewrite Ec in H. set (di := firstn (length perms) di0) in *.
  assert (Ldi : length di = length perms) by (unfold di; rewrite firstn_length; lia).
  assert (Ndi : NoDup di) by now apply firstn_NoDup.
  assert (Edi : forall k i, nth_error di k = Some i -> nth_error dperm k = Some i).
  { intros k i Hk. apply Edi0. rewrite <- (firstn_skipn (length perms) di0).
    rewrite nth_error_app1; auto. apply nth_error_Some. fold di. congruence. }
  assert (Bdi : forall i, In i di -> i < length doms) by (intros i Hi; apply Bdi0; now apply firstn_incl in Hi).
  clearbody di. clear di0 Ldi0 Ndi0 Edi0 Bdi0 Ec.
  assert (NDd : NoDup doms) by (apply StronglySorted_Zlt_NoDup, HD).
  exists (map (fun i => nth i doms 0%Z) di). split; [|split; [|split]].
  - clear - Ndi Bdi NDd. rewrite (NoDup_nth _ 0%Z) in NDd.
    induction Ndi as [|i di Hi Hn IH]; simpl; constructor.
    + intros C. apply in_map_iff in C as [j [E Hj]].
      apply NDd in E; [subst; auto|apply Bdi; now right|apply Bdi; now left].
    + apply IH. intros; apply Bdi; now right.
  - intros d Hd. apply in_map_iff in Hd as [i [<- Hi]]. apply nth_In. auto.
  - rewrite map_length. lia.
  - apply mapM_ok_iff in H.
    assert (G : forall k i d p, nth_error di k = Some i -> nth_error doms i = Some d -> nth_error perms k = Some p ->
      is_perm (how_many (other_source d) sd) (fst p) /\ is_perm (how_many (Z.eqb (- d)) sd) (snd p)).
    { intros k i d p Hk. apply HPs. now apply Edi. }
    clear HPs Edi Ndi HL HP. revert perms r Ldi H G.
    induction di as [|i di IH]; intros [|p perms] r Ldi H G; simpl in *; try discriminate.
    + inversion H; subst. constructor.
    + inversion H as [|? q ? r' H1 H2]; subst. constructor.
      * simpl in H1. destruct (nth_error doms i) as [d|] eqn:E; [|discriminate].
        destruct (G 0 i d p eq_refl E eq_refl) as [G1 G2].
        rewrite (nth_error_nth _ _ _ E). eapply lodo_one_ok; eauto. eapply nth_error_In; eauto.
      * apply (IH ltac:(auto) perms); auto. intros k. apply (G (S k)).
Qed.

(** A run that reaches the domain labelled 0 fails. *)
Lemma lodo_zero_fails n sda mx ts tr dperm perms doms r k i :
  let sd := eff_domain n sda in
  labels_where is_source sd doms -> nth_error dperm k = Some i -> nth_error doms i = Some 0%Z ->
  k < length perms -> k < mx ->
  leave_one_domain_out n sda mx ts tr dperm perms = Ok r -> False.
Proof.
  intros sd HD Hk Hi L1 L2 H. unfold leave_one_domain_out in H.
  apply bind_ok in H as [sd1 [H1 H]]. apply check_all_flags in H1 as (_ & -> & _). fold sd in H.
  assert (ED : lodo_domains sd = doms).
  { eapply labels_where_ext; [apply labels_where_unique|exact HD]. }
  rewrite ED in H.
  set (di := if mx <? length doms then firstn mx dperm else dperm) in H.
  assert (Hk' : nth_error di k = Some i).
  { unfold di. destruct (mx <? length doms); auto.
    rewrite <- (firstn_skipn mx dperm) in Hk. rewrite nth_error_app1 in Hk; auto.
    rewrite firstn_length. assert (k < length (firstn mx dperm ++ skipn mx dperm)) by (apply nth_error_Some; congruence).
    rewrite firstn_skipn in H0. lia. }
  clearbody di. clear Hk. apply mapM_ok_iff in H.
  revert k perms r Hk' L1 L2 H. induction di as [|j di IH]; intros [|k] [|p perms] r Hk L1 L2 H; simpl in *; try lia; try discriminate.
  - injection Hk as ->. inversion H as [|? ? ? ? H1 H2]; subst. simpl in H1. rewrite Hi in H1.
    rewrite lodo_one_zero in H1 by auto. discriminate.
  - inversion H as [|? ? ? r' H1 H2]; subst. apply (IH k perms r'); auto; lia.
Qed.

(** ** Groups *)

Lemma eq_pair_true a b : eq_pair a b = true <-> a = b.
Proof.
  destruct a as [a1 a2], b as [b1 b2]. unfold eq_pair; simpl. rewrite andb_true_iff, !Z.eqb_eq.
  split; [intros [-> ->]; auto|intros H; injection H; auto].
Qed.
Lemma eq_pair_false a b : eq_pair a b = false <-> a <> b.
Proof.
  rewrite <- eq_pair_true. destruct (eq_pair a b); split; intros H; auto; try congruence.
Qed.
Lemma pair_ltb_true a b : pair_ltb a b = true <-> pair_lt a b.
Proof.
  unfold pair_ltb, pair_lt. rewrite orb_true_iff, andb_true_iff, !Z.ltb_lt, Z.eqb_eq. tauto.
Qed.
Lemma pair_lt_trans a b c : pair_lt a b -> pair_lt b c -> pair_lt a c.
Proof. unfold pair_lt. lia. Qed.
Lemma pair_lt_irrefl a : ~ pair_lt a a.
Proof. unfold pair_lt. lia. Qed.
Lemma pair_lt_total a b : pair_lt a b \/ a = b \/ pair_lt b a.
Proof.
  destruct a as [a1 a2], b as [b1 b2]. unfold pair_lt; simpl.
  destruct (Z.lt_trichotomy a1 b1) as [?|[->|?]]; auto.
  destruct (Z.lt_trichotomy a2 b2) as [?|[->|?]]; auto.
Qed.

Lemma insert_pair_In z l x : In x (insert_pair z l) <-> x = z \/ In x l.
Proof.
  induction l as [|h t IH]; simpl.
  - split; intros [H|H]; auto.
  - destruct (pair_ltb z h); simpl; [intuition|]. change (pair_eqb z h) with (eq_pair z h).
    destruct (eq_pair z h) eqn:E; simpl.
    + apply eq_pair_true in E. subst. intuition.
    + rewrite IH. intuition.
Qed.

Lemma insert_pair_sorted z l : StronglySorted pair_lt l -> StronglySorted pair_lt (insert_pair z l).
Proof.
  induction 1 as [|h t Hs IH Hf]; simpl.
  - repeat constructor.
  - destruct (pair_ltb z h) eqn:E1.
    + apply pair_ltb_true in E1. constructor; [constructor; auto|].
      constructor; auto. eapply Forall_impl; [|exact Hf]. intros a Ha. eapply pair_lt_trans; eauto.
    + change (pair_eqb z h) with (eq_pair z h). destruct (eq_pair z h) eqn:E2.
      * now constructor.
      * constructor; auto. apply Forall_forall. intros x Hx. apply insert_pair_In in Hx as [->|Hx].
        -- apply eq_pair_false in E2. destruct (pair_lt_total z h) as [C|[C|C]]; auto; [|easy].
           apply pair_ltb_true in C. congruence.
        -- rewrite Forall_forall in Hf. auto.
Qed.

Lemma unique_pairs_groups rows : groups_of rows (unique_pairs rows).
Proof.
  split.
  - induction rows; simpl; [constructor|]. now apply insert_pair_sorted.
  - intros g. induction rows as [|r rows IH]; simpl; [tauto|].
    fold (unique_pairs rows). rewrite insert_pair_In, IH. intuition.
Qed.

Lemma sorted_pair_ext l1 l2 :
  StronglySorted pair_lt l1 -> StronglySorted pair_lt l2 -> (forall x, In x l1 <-> In x l2) -> l1 = l2.
Proof.
  intros H1; revert l2; induction H1 as [|a l1 Hs IH Hf]; intros l2 H2 E.
  - destruct l2 as [|b l2]; auto. exfalso. apply (E b). now left.
  - destruct l2 as [|b l2]; [exfalso; apply (E a); now left|].
    inversion H2 as [|? ? Hs2 Hf2]; subst. rewrite Forall_forall in Hf, Hf2.
    assert (a = b).
    { destruct (proj1 (E a) (or_introl eq_refl)) as [->|Ha]; auto.
      destruct (proj2 (E b) (or_introl eq_refl)) as [->|Hb]; auto.
      exfalso. apply (pair_lt_irrefl a). eapply pair_lt_trans; [apply Hf, Hb|apply Hf2, Ha]. }
    subst b. f_equal. apply IH; auto. intros x. split; intros Hx.
    + destruct (proj1 (E x) (or_intror Hx)) as [->|]; auto. exfalso. apply (pair_lt_irrefl x). auto.
    + destruct (proj2 (E x) (or_intror Hx)) as [->|]; auto. exfalso. apply (pair_lt_irrefl x). auto.
Qed.

Lemma groups_of_unique rows gs : groups_of rows gs -> gs = unique_pairs rows.
Proof.
  intros [H1 H2]. destruct (unique_pairs_groups rows) as [H3 H4].
  apply sorted_pair_ext; auto. intros x. now rewrite H2, H4.
Qed.

Lemma groups_NoDup rows gs : groups_of rows gs -> NoDup gs.
Proof.
  intros [H _]. induction H as [|a l Hs IH Hf]; constructor; auto.
  intros C. rewrite Forall_forall in Hf. apply (pair_lt_irrefl a). auto.
Qed.

Lemma index_of_eqb gs r i : NoDup gs -> In r gs ->
  (i =? index_of r gs) = match nth_error gs i with Some g => eq_pair g r | None => false end.
Proof.
  intros N; revert i; induction N as [|g gs Hg N IH]; intros i H; [easy|].
  cbn [index_of]. change (pair_eqb r g) with (eq_pair r g). destruct (eq_pair r g) eqn:E.
  - apply eq_pair_true in E. subst g. destruct i as [|i]; simpl.
    + symmetry. now apply eq_pair_true.
    + destruct (nth_error gs i) as [h|] eqn:E2; auto. symmetry. apply eq_pair_false. intros ->.
      apply nth_error_In in E2. auto.
  - apply eq_pair_false in E. destruct H as [H|H]; [congruence|]. destruct i as [|i]; simpl.
    + symmetry. apply eq_pair_false. congruence.
    + now apply IH.
Qed.

Section Strat.
  Variables (rows gs : list (Z * Z)).
  Hypothesis HG : groups_of rows gs.
  Let inverse := map (fun r => index_of r gs) rows.
  Let buckets := map (fun g => positions (eq_pair g) rows) gs.

  Lemma bucket_mask i g : nth_error gs i = Some g -> map (Nat.eqb i) inverse = map (eq_pair g) rows.
  Proof.
    intros H. unfold inverse. rewrite map_map. apply map_ext_in. intros r Hr.
    rewrite (index_of_eqb gs r i (groups_NoDup _ _ HG)); [now rewrite H|]. now apply (proj2 HG).
  Qed.

  Lemma map_seq_nth {B} (F : nat -> B) (G : Z * Z -> B) (l : list (Z * Z)) k :
    (forall i g, nth_error l i = Some g -> F (k + i) = G g) -> map F (seq k (length l)) = map G l.
  Proof.
    revert k; induction l as [|g l IH]; intros k H; simpl; auto. f_equal.
    - specialize (H 0 g eq_refl). now rewrite Nat.add_0_r in H.
    - apply IH. intros i h Hi. rewrite <- (H (S i) h Hi). f_equal. lia.
  Qed.

  Lemma strat_counts : bincount (length gs) inverse = map (group_size rows) gs.
  Proof.
    unfold bincount. apply map_seq_nth. intros i g Hi. simpl.
    change (length (filter (Nat.eqb i) inverse)) with (how_many (Nat.eqb i) inverse).
    rewrite <- (count_map (Nat.eqb i) inverse). rewrite (bucket_mask i g Hi). apply count_map.
  Qed.

  Lemma strat_argsort : stable_argsort (length gs) inverse = concat buckets.
  Proof.
    unfold stable_argsort, buckets. f_equal. apply map_seq_nth. intros i g Hi. simpl.
    rewrite (bucket_mask i g Hi). now rewrite positions_flatnonzero.
  Qed.

  Lemma split_at_concat {A} (bs : list (list A)) : split_at (map (@length A) bs) (concat bs) = bs.
  Proof.
    induction bs as [|b bs IH]; [reflexivity|]. destruct bs as [|b2 bs].
    - simpl. now rewrite app_nil_r.
    - cbn [map]. cbn [map] in IH.
      change (split_at (length b :: length b2 :: map (@length A) bs) (concat (b :: b2 :: bs)))
        with (firstn (length b) (b ++ concat (b2 :: bs))
              :: split_at (length b2 :: map (@length A) bs) (skipn (length b) (b ++ concat (b2 :: bs)))).
      rewrite firstn_app, Nat.sub_diag, firstn_all, firstn_O, app_nil_r.
      rewrite skipn_app, Nat.sub_diag, skipn_all, skipn_O, app_nil_l. now rewrite IH.
  Qed.

  Lemma strat_buckets : split_at (map (group_size rows) gs) (concat buckets) = buckets.
  Proof.
    rewrite <- (split_at_concat buckets) at 2. f_equal. unfold buckets. rewrite map_map. apply map_ext.
    intros g. unfold group_size. now rewrite positions_length.
  Qed.
End Strat.

Definition row (rows : list (Z * Z)) (i : nat) : Z * Z := nth i rows (0, 0)%Z.

Lemma positions_row g rows i : In i (positions (eq_pair g) rows) <-> i < length rows /\ row rows i = g.
Proof.
  rewrite positions_In. split.
  - intros [x [H1 H2]]. apply eq_pair_true in H2. subst x. split; [apply nth_error_Some; congruence|].
    unfold row. now apply nth_error_nth.
  - intros [H1 H2]. exists g. split; [|now apply eq_pair_true].
    rewrite (nth_error_nth' rows (0, 0)%Z H1). f_equal. exact H2.
Qed.

Lemma group_in_app rows g l1 l2 : group_in rows g (l1 ++ l2) = group_in rows g l1 + group_in rows g l2.
Proof. apply how_many_app. Qed.

Lemma strat_groups_ok rows gs perms ns ts r : NoDup gs ->
  Forall2 (fun g q => fst q + snd q <= group_size rows g) gs (combine ns ts) ->
  length ns = length gs -> length ts = length gs ->
  Forall2 (fun g p => is_perm (group_size rows g) p) gs perms ->
  strat_groups (map (fun g => positions (eq_pair g) rows) gs) perms ns ts = Ok r ->
  NoDup (fst r ++ snd r) /\
  (forall i, In i (fst r ++ snd r) -> i < length rows /\ In (row rows i) gs) /\
  length (fst r) = total ns /\ length (snd r) = total ts /\
  (forall k g, nth_error gs k = Some g ->
     group_in rows g (fst r) = nth k ns 0 /\ group_in rows g (snd r) = nth k ts 0).
Proof.
  intros N; revert perms ns ts r; induction N as [|g gs Hg N IH]; intros perms ns ts r HA L1 L2 HP H.
  - destruct ns, ts; simpl in *; try discriminate. injection H as <-. simpl.
    repeat split; auto; try constructor; try easy; destruct k; discriminate.
  - destruct ns as [|n ns], ts as [|t ts]; simpl in L1, L2; try discriminate.
    inversion HP as [|? p ? perms' Hp HP' ]; subst. simpl in H, HA.
    inversion HA as [|? ? ? ? Ha HA']; subst. simpl in Ha.
    apply bind_ok in H as [pg [Hpg H]]. apply bind_ok in H as [[tr te] [Hr H]]. injection H as <-. cbn [fst snd].
    assert (Pg : Permutation pg (positions (eq_pair g) rows)).
    { eapply take_perm_ok; [|exact Hpg]. now rewrite positions_length. }
    destruct (IH perms' ns ts (tr, te)) as (I1 & I2 & I3 & I4 & I5); auto. clear IH. cbn [fst snd] in *.
    assert (Lg : length pg = group_size rows g) by (rewrite (Permutation_length Pg); apply positions_length).
    assert (Bg : forall i, In i pg -> i < length rows /\ row rows i = g).
    { intros i Hi. apply positions_row. eapply Permutation_in; eauto. }
    assert (PP : Permutation ((firstn n pg ++ tr) ++ slice n (n + t) pg ++ te) (firstn (n + t) pg ++ (tr ++ te))).
    { rewrite <- (firstn_slice n t pg). rewrite <- !app_assoc. apply Permutation_app_head.
      rewrite !app_assoc. apply Permutation_app_tail. apply Permutation_app_comm. }
    assert (In1 : forall i, In i ((firstn n pg ++ tr) ++ slice n (n + t) pg ++ te) -> In i pg \/ In i (tr ++ te)).
    { intros i Hi. apply (Permutation_in _ PP) in Hi. apply in_app_or in Hi as [Hi|Hi]; auto.
      apply firstn_incl in Hi; auto. }
    assert (Z1 : forall l, incl l pg -> forall h, In h gs -> group_in rows h l = 0).
    { intros l Hl h Hh. apply how_many_none. intros i Hi. apply eq_pair_false. intros ->.
      apply Hl, Bg in Hi as [_ Hi]. unfold row in Hi. congruence. }
    assert (Z2 : forall l, incl l (tr ++ te) -> group_in rows g l = 0).
    { intros l Hl. apply how_many_none. intros i Hi. apply eq_pair_false. intros E.
      apply Hl, I2 in Hi as [_ Hi]. unfold row in Hi. congruence. }
    assert (Z3 : forall l, incl l pg -> group_in rows g l = length l).
    { intros l Hl. apply how_many_all. intros i Hi. apply eq_pair_true. apply Hl, Bg in Hi as [_ Hi]. now symmetry. }
    split; [|split; [|split; [|split]]].
    + eapply Permutation_NoDup; [apply Permutation_sym, PP|]. apply NoDup_app_disjoint; auto.
      * apply firstn_NoDup. eapply Permutation_NoDup; [apply Permutation_sym, Pg|apply positions_NoDup].
      * intros i H1 H2. apply firstn_incl, Bg in H1 as [_ H1]. apply I2 in H2 as [_ H2]. congruence.
    + intros i Hi. apply In1 in Hi as [Hi|Hi].
      * apply Bg in Hi as [? ->]. split; auto. now left.
      * apply I2 in Hi as [? ?]. split; auto. now right.
    + rewrite app_length, firstn_length, I3. simpl. lia.
    + rewrite app_length, slice_length, I4 by lia. simpl. lia.
    + intros [|k] h Hk; simpl in Hk.
      * injection Hk as <-. rewrite !group_in_app. cbn [nth].
        rewrite (Z2 tr), (Z2 te) by (intros x Hx; apply in_or_app; auto).
        rewrite !Z3 by (first [apply firstn_incl|apply slice_incl]).
        rewrite firstn_length, slice_length by lia. lia.
      * cbn [nth]. destruct (I5 k h Hk) as [J1 J2]. apply nth_error_In in Hk.
        rewrite !group_in_app, (Z1 (firstn n pg)), (Z1 (slice n (n + t) pg)); auto; [apply slice_incl|apply firstn_incl].
Qed.

Lemma strat_groups_succeeds rows gs perms ns ts :
  length ns = length gs -> length ts = length gs ->
  Forall2 (fun g p => is_perm (group_size rows g) p) gs perms ->
  exists r, strat_groups (map (fun g => positions (eq_pair g) rows) gs) perms ns ts = Ok r.
Proof.
  revert perms ns ts; induction gs as [|g gs IH]; intros perms ns ts L1 L2 HP; simpl; [eauto|].
  inversion HP as [|? p ? perms' Hp HP']; subst.
  destruct ns as [|n ns], ts as [|t ts]; simpl in L1, L2; try discriminate.
  destruct (take_perm p (positions (eq_pair g) rows)) as [pg [-> _]]; [now rewrite positions_length|]. cbn [bind].
  destruct (IH perms' ns ts) as [r ->]; auto. cbn [bind]. eauto.
Qed.

Lemma strat_one_ok rows gs n_train n_test d r : NoDup gs ->
  draw_ok rows gs n_train n_test d ->
  strat_one (map (fun g => positions (eq_pair g) rows) gs) d = Ok r ->
  strat_split rows gs n_train n_test d r.
Proof.
  intros N (D1 & D2 & D3 & D4 & D5 & D6 & D7 & D8) H. unfold strat_one in H.
  apply bind_ok in H as [r0 [H0 H]].
  apply strat_groups_ok in H0 as (I1 & I2 & I3 & I4 & I5); auto.
  apply bind_ok in H as [tr [Htr H]]. apply bind_ok in H as [te [Hte H]]. injection H as <-.
  assert (P1 : Permutation tr (fst r0)) by (eapply take_perm_ok; [|exact Htr]; congruence).
  assert (P2 : Permutation te (snd r0)) by (eapply take_perm_ok; [|exact Hte]; congruence).
  assert (P : Permutation (tr ++ te) (fst r0 ++ snd r0)) by now apply Permutation_app.
  split; [split|split; [|split]].
  - eapply Permutation_NoDup; [apply Permutation_sym, P|auto].
  - apply Forall_forall. intros i Hi. apply (Permutation_in _ P) in Hi. now apply I2.
  - rewrite (Permutation_length P1). congruence.
  - rewrite (Permutation_length P2). congruence.
  - intros k g Hk. unfold group_in. rewrite (how_many_perm _ _ _ P1), (how_many_perm _ _ _ P2). now apply I5.
Qed.

Lemma strat_one_succeeds rows gs n_train n_test d : NoDup gs ->
  draw_ok rows gs n_train n_test d ->
  exists r, strat_one (map (fun g => positions (eq_pair g) rows) gs) d = Ok r.
Proof.
  intros N (D1 & D2 & D3 & D4 & D5 & D6 & D7 & D8). unfold strat_one.
  destruct (strat_groups_succeeds rows gs (dr_perms d) (dr_n d) (dr_t d)) as [r0 H0]; auto.
  rewrite H0. cbn [bind].
  apply strat_groups_ok in H0 as (I1 & I2 & I3 & I4 & I5); auto.
  destruct (take_perm (dr_train d) (fst r0)) as [a [-> _]]; [congruence|].
  destruct (take_perm (dr_test d) (snd r0)) as [b [-> _]]; [congruence|]. cbn [bind]. eauto.
Qed.

(** What the whole call does, once the labels are resolved. *)
Lemma strat_reduce y sda ts tr draws gs : let sd := eff_domain (length y) sda in
  0 < length y -> length sd = length y -> groups_of (combine y sd) gs ->
  stratified_domain_shuffle_split y sda ts tr draws =
  (nn <- validate_shuffle_split (length y) ts tr ;;
   let (n_train, n_test) := nn : nat * nat in
   if existsb (fun c => c <? 2) (map (group_size (combine y sd)) gs) then Err ValueError
   else if n_train <? length gs then Err ValueError
   else if n_test <? length gs then Err ValueError
   else mapM (strat_one (map (fun g => positions (eq_pair g) (combine y sd)) gs)) draws).
Proof.
  intros sd H1 H2 HG. unfold stratified_domain_shuffle_split.
  assert (E : check_X_domain (length y) sda all_flags = Ok sd) by (apply check_all_flags; auto).
  rewrite E. cbn [bind].
  rewrite <- (groups_of_unique _ _ HG).
  rewrite (strat_counts _ _ HG), (strat_argsort _ _ HG), (strat_buckets _ _). reflexivity.
Qed.

(** ** DomainShuffleSplit *)

Lemma filter_unique p sd : filter p (unique sd) = unique (filter p sd).
Proof.
  apply StronglySorted_Zlt_ext.
  - pose proof (unique_sorted sd) as H. induction H as [|a l Hs IH Hf]; simpl; [constructor|].
    destruct (p a); auto. constructor; auto. apply Forall_forall. intros x Hx. apply filter_In in Hx as [Hx _].
    rewrite Forall_forall in Hf. auto.
  - apply unique_sorted.
  - intros x. rewrite filter_In, !unique_In, filter_In. tauto.
Qed.

Definition dom_table (sd ls : list Z) : dict Z (list nat) := map (fun d => (d, positions (Z.eqb d) sd)) ls.

Lemma filter_map_fst {V} (g : Z -> Z * V) p l : (forall d, fst (g d) = d) ->
  filter (fun kv => p (fst kv)) (map g l) = map g (filter p l).
Proof.
  intros H. induction l as [|a l IH]; simpl; auto. rewrite H. destruct (p a); simpl; now rewrite IH.
Qed.

Lemma extract_st_ok sd di sources targets : extract_domains_indices_st sd = Ok di ->
  labels_where is_source sd sources -> labels_where is_target sd targets ->
  di = (dom_table sd sources, dom_table sd targets).
Proof.
  intros H Hs Ht. unfold extract_domains_indices_st, extract_domains_indices in H.
  destruct (length sd =? 0); [discriminate|]. cbn [bind] in H. injection H as <-.
  assert (E : map (fun d => (d, flatnonzero (map (fun x => (x =? d)%Z) sd))) (unique sd) = dom_table sd (unique sd)).
  { unfold dom_table. apply map_ext. intros d. f_equal. rewrite positions_flatnonzero. f_equal. apply map_ext.
    intros x. apply Z.eqb_sym. }
  rewrite E. unfold dom_table.
  rewrite (filter_map_fst (fun d => (d, positions (Z.eqb d) sd)) (fun z => (0 <=? z)%Z)) by reflexivity.
  rewrite (filter_map_fst (fun d => (d, positions (Z.eqb d) sd)) (fun z => (z <? 0)%Z)) by reflexivity.
  rewrite !filter_unique.
  assert (E1 : unique (filter (fun z => (0 <=? z)%Z) sd) = sources)
    by (eapply labels_where_ext; [apply labels_where_unique|exact Hs]).
  assert (E2 : unique (filter (fun z => (z <? 0)%Z) sd) = targets)
    by (eapply labels_where_ext; [apply labels_where_unique|exact Ht]).
  now rewrite E1, E2.
Qed.

Lemma under_count_floor u k : (0 <= u)%Q -> is_floor (times u k) (under_count u k).
Proof.
  intros Hu. apply floor_spec. unfold under_count, times.
  assert (E : (inject_Z (Z.of_nat k) * u == u * inject_Z (Z.of_nat k))%Q) by ring. rewrite E.
  rewrite Z2Nat.id; auto.
  change 0%Z with (Qfloor (inject_Z 0)). apply Qfloor_resp_le. change (inject_Z 0) with 0%Q.
  apply Qmult_le_0_compat; auto. apply inject_nonneg.
Qed.

Lemma under_count_le u k : (0 <= u)%Q -> (u <= 1)%Q -> under_count u k <= k.
Proof.
  intros H0 H1. destruct (under_count_floor u k H0) as [H _]. unfold times in H.
  assert (inject_Z (Z.of_nat (under_count u k)) <= inject_Z (Z.of_nat k))%Q.
  { eapply Qle_trans; [exact H|]. pose proof (inject_nonneg k) as Hk.
    setoid_replace (inject_Z (Z.of_nat k)) with (1 * inject_Z (Z.of_nat k))%Q at 2 by ring.
    now apply Qmult_le_compat_r. }
  rewrite <- Zle_Qle in H2. lia.
Qed.

Lemma undersample_ok sd u ls perms S0 : (0 <= u)%Q -> (u <= 1)%Q -> NoDup ls ->
  Forall2 (fun l p => is_perm (how_many (Z.eqb l) sd) p) ls perms ->
  undersample u (dom_table sd ls) perms = Ok S0 ->
  NoDup S0 /\ (forall i, In i S0 -> i < length sd /\ In (label sd i) ls) /\
  (forall d, In d ls -> count_in (Z.eqb d) sd S0 = under_count u (how_many (Z.eqb d) sd)) /\
  length S0 = total (map (fun d => under_count u (how_many (Z.eqb d) sd)) ls).
Proof.
  intros U0 U1 N HP H. unfold undersample in H.
  assert (G : exists parts, S0 = concat parts /\
     Forall2 (fun d part => incl part (positions (Z.eqb d) sd) /\ NoDup part /\
                            length part = under_count u (how_many (Z.eqb d) sd)) ls parts).
  { destruct (dom_table sd ls) eqn:E; [discriminate|]. rewrite <- E in H. clear E.
    apply bind_ok in H as [parts [H H']]. injection H' as <-. exists parts. split; auto.
    apply mapM_ok_iff in H. clear - HP H U0 U1. revert parts H. induction HP as [|l p ls perms Hp HP IH]; intros parts H.
    - inversion H. constructor.
    - simpl in H. inversion H as [|? q ? parts' H1 H2]; subst. constructor; [|now apply IH].
      simpl in H1. unfold choice in H1. rewrite positions_length in H1.
      set (k := under_count u (how_many (Z.eqb l) sd)) in *.
      assert (Hk : k <= how_many (Z.eqb l) sd) by now apply under_count_le.
      destruct (how_many (Z.eqb l) sd <? k); [discriminate|].
      destruct (take_perm p (positions (Z.eqb l) sd)) as [full [Hf Pf]]; [now rewrite positions_length|].
      assert (Eq : q = firstn k full).
      { rewrite <- (firstn_skipn k p) in Hf. rewrite np_take_app, H1 in Hf. cbn [bind] in Hf.
        apply bind_ok in Hf as [b [Hb Hf]]. injection Hf as <-.
        apply np_take_length in H1. rewrite firstn_app, firstn_all2.
        - replace (k - length q) with 0; [now rewrite firstn_O, app_nil_r|].
          rewrite H1, firstn_length, (Permutation_length Hp), seq_length. lia.
        - rewrite H1, firstn_length. lia. }
      subst q. split; [|split].
      + intros x Hx. apply firstn_incl in Hx. eapply Permutation_in; eauto.
      + apply firstn_NoDup. eapply Permutation_NoDup; [apply Permutation_sym, Pf|apply positions_NoDup].
      + rewrite firstn_length, (Permutation_length Pf), positions_length. lia. }
  clear H HP. destruct G as [parts [-> F]].
  induction F as [|d part ls parts (I1 & I2 & I3) F IH]; simpl.
  - repeat split; auto; try easy. constructor.
  - inversion N as [|? ? Nd Nl]; subst. destruct (IH Nl) as (J1 & J2 & J3 & J4). clear IH.
    assert (Bp : forall i, In i part -> i < length sd /\ label sd i = d).
    { intros i Hi. apply I1 in Hi. apply positions_label in Hi as [? Hi]. apply Z.eqb_eq in Hi. auto. }
    split; [|split; [|split]].
    + apply NoDup_app_disjoint; auto. intros i Hi Hi2. apply Bp in Hi as [_ Hi]. apply J2 in Hi2 as [_ Hi2]. congruence.
    + intros i Hi. apply in_app_or in Hi as [Hi|Hi].
      * apply Bp in Hi as [? ->]. auto.
      * apply J2 in Hi as [? ?]. auto.
    + intros e He. unfold count_in. rewrite how_many_app. destruct He as [->|He].
      * rewrite how_many_all by (intros i Hi; apply Z.eqb_eq; apply Bp in Hi as [_ Hi]; now symmetry).
        rewrite how_many_none; [lia|]. intros i Hi. apply J2 in Hi as [_ Hi]. apply Z.eqb_neq. congruence.
      * rewrite how_many_none; [simpl; now apply J3|]. intros i Hi. apply Bp in Hi as [_ ->]. apply Z.eqb_neq. congruence.
    + rewrite app_length, I3, J4. reflexivity.
Qed.

Lemma floor_list sd u ls : (0 <= u)%Q ->
  Forall2 (fun l k => is_floor (times u (how_many (Z.eqb l) sd)) k) ls
          (map (fun d => under_count u (how_many (Z.eqb d) sd)) ls).
Proof. intros H. induction ls; simpl; constructor; auto. now apply under_count_floor. Qed.

Lemma domain_shuffle_one_ok sd u ts tr d r ds dt sources targets : (0 <= u)%Q -> (u <= 1)%Q ->
  dom_draw_ok sd u d ->
  labels_where is_source sd sources -> labels_where is_target sd targets ->
  ds = dom_table sd sources -> dt = dom_table sd targets ->
  domain_shuffle_one u ts tr ds dt d = Ok r -> under_split sd u ts tr r.
Proof.
  intros U0 U1 (so & ta & W1 & W2 & F1 & F2 & F3 & F4) V1 V2 -> -> H.
  assert (so = sources) by (eapply labels_where_ext; eauto). subst so.
  assert (ta = targets) by (eapply labels_where_ext; eauto). subst ta. clear W1 W2.
  specialize (F3 _ (floor_list sd u sources U0)). specialize (F4 _ (floor_list sd u targets U0)).
  unfold domain_shuffle_one in H.
  apply bind_ok in H as [s0 [Hs0 H]]. apply bind_ok in H as [t0 [Ht0 H]].
  apply bind_ok in H as [sp [Hsp H]]. apply bind_ok in H as [tp [Htp H]].
  apply bind_ok in H as [[a b] [Hs H]]. apply bind_ok in H as [[c e] [Ht H]].
  apply undersample_ok in Hs0 as (A1 & A2 & A3 & A4); auto; [|apply StronglySorted_Zlt_NoDup, V1].
  apply undersample_ok in Ht0 as (B1 & B2 & B3 & B4); auto; [|apply StronglySorted_Zlt_NoDup, V2].
  rewrite <- A4 in F3. rewrite <- B4 in F4.
  assert (Ps := take_perm_ok _ _ _ F3 Hsp). assert (Pt := take_perm_ok _ _ _ F4 Htp).
  injection H as <-.
  apply validate_ok in Hs as (_ & Ss & _). apply validate_ok in Ht as (_ & St & _).
  change (under_split sd u ts tr (part2 sp tp a b c e)).
  assert (Is : forall i, In i sp -> i < length sd /\ In (label sd i) sources).
  { intros i Hi. apply A2. eapply Permutation_in; eauto. }
  assert (It : forall i, In i tp -> i < length sd /\ In (label sd i) targets).
  { intros i Hi. apply B2. eapply Permutation_in; eauto. }
  assert (Is' : forall i, In i sp -> is_source (label sd i) = true).
  { intros i Hi. apply Is in Hi as [_ Hi]. now apply (proj2 V1). }
  assert (It' : forall i, In i tp -> is_target (label sd i) = true).
  { intros i Hi. apply It in Hi as [_ Hi]. now apply (proj2 V2). }
  assert (It'' : forall i, In i tp -> is_source (label sd i) = false).
  { intros i Hi. apply It' in Hi. rewrite is_target_negb in Hi. now apply negb_true_iff in Hi. }
  assert (Is'' : forall i, In i sp -> is_target (label sd i) = false).
  { intros i Hi. apply Is' in Hi. now rewrite is_target_negb, Hi. }
  assert (Ns : NoDup sp) by (eapply Permutation_NoDup; [apply Permutation_sym, Ps|auto]).
  assert (Nt : NoDup tp) by (eapply Permutation_NoDup; [apply Permutation_sym, Pt|auto]).
  assert (Dj : forall x, In x sp -> In x tp -> False).
  { intros x G1 G2. apply Is' in G1. apply It'' in G2. congruence. }
  assert (Ls : a + b <= length sp) by apply Ss. assert (Lt : c + e <= length tp) by apply St.
  assert (C := part2_clean (length sd) sp tp a b c e).
  assert (P := part2_perm sp tp a b c e).
  assert (K1 := count_side (fun i => is_source (label sd i)) sp tp a b c e Is' It'' Ls).
  assert (K2 := count_side2 (fun i => is_target (label sd i)) sp tp a b c e Is'' It' Lt).
  destruct (part2 sp tp a b c e) as [train test].
  destruct K1 as [K1 K1']. destruct K2 as [K2 K2'].
  split; [apply C; auto; [intros i Hi; now apply Is|intros i Hi; now apply It]|].
  assert (CS : count_in is_source sd (sp ++ tp) = length sp).
  { unfold count_in. rewrite how_many_app, how_many_all, how_many_none; auto. }
  assert (CT : count_in is_target sd (sp ++ tp) = length tp).
  { unfold count_in. rewrite how_many_app, (how_many_none _ sp), how_many_all; auto. }
  exists (sp ++ tp). split; [|split; [|split; [|split; [|split; [|split]]]]].
  - now apply NoDup_app_disjoint.
  - apply Forall_forall. intros i Hi. apply in_app_or in Hi as [Hi|Hi]; [now apply Is|now apply It].
  - intros d0 Hd0.
    assert (E : count_in (Z.eqb d0) sd (sp ++ tp) = under_count u (how_many (Z.eqb d0) sd));
      [|rewrite E; now apply under_count_floor].
    unfold count_in. rewrite how_many_app.
    destruct (is_source d0) eqn:Es.
    + rewrite (how_many_perm _ _ _ Ps). fold (count_in (Z.eqb d0) sd s0). rewrite A3 by now apply (proj2 V1).
      rewrite (how_many_none _ tp); [lia|]. intros i Hi. apply Z.eqb_neq. intros ->. apply It'' in Hi. congruence.
    + assert (Et : is_target d0 = true) by (now rewrite is_target_negb, Es).
      rewrite (how_many_perm _ _ _ Pt). fold (count_in (Z.eqb d0) sd t0). rewrite B3 by now apply (proj2 V2).
      rewrite (how_many_none _ sp); [lia|]. intros i Hi. apply Z.eqb_neq. intros ->. apply Is' in Hi. congruence.
  - intros i Hi. apply (Permutation_in _ P) in Hi. apply in_or_app.
    apply in_app_or in Hi as [Hi|Hi]; apply firstn_incl in Hi; auto.
  - rewrite CS. unfold count_in. rewrite K1, K1'. exact Ss.
  - rewrite CT. unfold count_in. rewrite K2, K2'. exact St.
  - intros Hc.
    assert (Es : a + b = length sp).
    { destruct Ss as (_ & _ & _ & G1 & G2 & _). destruct Hc as [-> | ->]; [exact G1|exact G2]. }
    assert (Et : c + e = length tp).
    { destruct St as (_ & _ & _ & G1 & G2 & _). destruct Hc as [-> | ->]; [exact G1|exact G2]. }
    eapply perm_trans; [exact P|]. rewrite !firstn_all2 by lia. apply Permutation_refl.
Qed.

Lemma domain_shuffle_ok n sda u ts tr draws r : let sd := eff_domain n sda in
  Forall (dom_draw_ok sd u) draws ->
  domain_shuffle_split n sda u ts tr draws = Ok r ->
  (0 <= u <= 1)%Q /\ length sd = n /\ length r = length draws /\ Forall (under_split sd u ts tr) r.
Proof.
  intros sd HD H. unfold domain_shuffle_split in H.
  destruct (Qle_bool 0 u && Qle_bool u 1) eqn:E; [|discriminate]. cbn [negb] in H.
  apply andb_true_iff in E as [U0 U1]. apply Qle_bool_iff in U0, U1.
  apply bind_ok in H as [sd1 [H1 H]]. apply check_all_flags in H1 as (_ & -> & L). fold sd in L, H.
  apply bind_ok in H as [di [Hdi H]].
  pose proof (extract_st_ok sd di _ _ Hdi (labels_where_unique is_source sd) (labels_where_unique is_target sd)) as E. subst di. cbn [fst snd] in H.
  repeat split; auto.
  - now apply mapM_ok_length in H.
  - apply mapM_ok_iff in H. clear L. clearbody sd. induction H as [|d q draws r H1 H IH]; constructor.
    + apply Forall_inv in HD. eapply domain_shuffle_one_ok; try exact H1; eauto; apply labels_where_unique.
    + apply IH. now apply Forall_inv_tail in HD.
Qed.
