(** Theorem C169, continued: for every random_state and every history the splits are splits; data sets; the deep clustering. *)
From Coq Require Import List ZArith QArith Bool Arith Lia Sorting.Permutation Sorting.Sorted.
From Verif Require Import Np NpFacts Labels Spec SpecFacts UtilsModel UtilsSpec SelectModel SplitModel SplitSpec SplitProofs SplitProofs2 ThmSplit
  SeedModel SeedSpec ThmSeed.
Import ListNotations.
Local Open Scope nat_scope.

Section Valid.
  Variables G T : Type.
  Variable seeded : Z -> G.
  Variable permutation : nat -> G -> list nat * G.
  Variable mode : list nat -> nat -> G -> list nat * G.
  Hypothesis LP : lawful_permutation permutation.
  Notation world := (world G T).
  Notation split := (split G T seeded permutation mode).
  Notation lodo_all := (lodo_all G T seeded permutation).
  Notation run := (run G T).
  Notation draw := (draw G T).
  Notation check_random_state := (check_random_state G seeded).

Lemma run_forall {S} (P : S -> Prop) (one : G -> res S * G) k : (forall g s, fst (one g) = Ok s -> P s) ->
  forall r body i w l, fst (run one r body i k w) = Ok l -> length l = k /\ Forall P l.
Proof.
  intros H. induction k as [|k IH]; intros r body i w l E; [injection E as <-; split; [reflexivity|constructor]|].
  cbn [SeedModel.run] in E. destruct (draw_value G T one r w) as (g & Eg). destruct (draw one r w) as [[x r'] w']. cbn [fst] in Eg.
  destruct x as [s|e]; [|discriminate E].
  destruct (run one r' body (Datatypes.S i) k (body i w')) as [y v] eqn:Ey. cbn [fst] in E. apply bind_ok in E as (l' & Hy & E). injection E as <-. subst y.
  destruct (IH r' body (Datatypes.S i) (body i w') l') as [L F]; [now rewrite Ey|]. split; [cbn [length]; now f_equal|].
  constructor; [|exact F]. apply (H g). now symmetry.
Qed.
Lemma run_succeeds {S} (one : G -> res S * G) k : (forall g, exists s, fst (one g) = Ok s) ->
  forall r body i w, exists l, fst (run one r body i k w) = Ok l.
Proof.
  intros H. induction k as [|k IH]; intros r body i w; [exists []; reflexivity|].
  cbn [SeedModel.run]. destruct (draw_value G T one r w) as (g & Eg). destruct (draw one r w) as [[x r'] w']. cbn [fst] in Eg.
  destruct (H g) as (s & Es). rewrite Es in Eg. subst x. destruct (IH r' body (Datatypes.S i) (body i w')) as (l & El).
  destruct (run one r' body (Datatypes.S i) k (body i w')) as [y v]. cbn [fst] in *. subst y. exists (s :: l). reflexivity.
Qed.

(** One split of the two sides. *)
Lemma sides_partition sd ts tr p g s : sides sd ts tr = Ok p -> fst (partition_one G permutation p g) = s ->
  exists ps pt, is_perm (how_many is_source sd) ps /\ is_perm (how_many is_target sd) pt /\ iter_indices sd ts tr [(ps, pt)] = (x <- s ;; Ok [x]).
Proof.
  unfold sides. intros H. apply bind_ok in H as [m [Hm H]]. pose proof Hm as Hm0.
  unfold extract_source_indices in Hm. destruct (length sd =? 0); [discriminate|]. injection Hm as <-.
  assert (E1 : flatnonzero (source_mask sd) = positions is_source sd) by (now rewrite positions_flatnonzero).
  assert (E2 : flatnonzero (map negb (source_mask sd)) = positions is_target sd).
  { rewrite positions_flatnonzero. f_equal. unfold source_mask. rewrite map_map. apply map_ext. intros x. now rewrite is_target_negb. }
  apply bind_ok in H as [ss [Hs H]]. apply bind_ok in H as [tt [Ht H]]. injection H as <-. cbn [partition_one]. intros Hp.
  pose proof (LP (length (flatnonzero (source_mask sd))) g) as P1.
  destruct (permutation (length (flatnonzero (source_mask sd))) g) as [ps g1].
  pose proof (LP (length (flatnonzero (map negb (source_mask sd)))) g1) as P2.
  destruct (permutation (length (flatnonzero (map negb (source_mask sd)))) g1) as [pt g2]. cbn [fst] in *.
  exists ps, pt. split; [now rewrite E1, positions_length in P1|]. split; [now rewrite E2, positions_length in P2|].
  unfold iter_indices. rewrite Hm0. cbn [bind]. rewrite Hs. cbn [bind]. rewrite Ht. cbn [bind mapM fst snd]. rewrite Hp.
  destruct s; reflexivity.
Qed.

(** SourceTargetShuffleSplit: whatever random_state is, whatever the generators contain and the caller does, every split has the sizes
    asked for on both sides and no sample twice; and the splits exist whenever these sizes do. *)
Theorem C169_source_target_valid : forall ts tr rs n sd k body w l, fst (split (SourceTarget ts tr) rs n sd k body w) = Ok l ->
  length l = k /\ Forall (st_split (eff_domain n sd) ts tr) l.
Proof.
  intros ts tr rs n sd k body w l. unfold SeedModel.split. cbn [prepare].
  destruct (check_X_domain n sd all_flags) as [sd1|] eqn:C1; cbn [bind]; [|discriminate].
  destruct (check_X_domain n (SDArr sd1) all_flags) as [sd2|] eqn:C2; cbn [bind]; [|discriminate].
  destruct (sides sd2 ts tr) as [p|] eqn:S; cbn [bind]; [|discriminate]. destruct (check_random_state rs) as [r|]; [|discriminate].
  apply run_forall. intros g s H. destruct (sides_partition sd2 ts tr p g (Ok s) S H) as (ps & pt & P1 & P2 & E). cbn [bind] in E.
  assert (E0 : source_target_shuffle_split n sd ts tr [(ps, pt)] = Ok [s]).
  { unfold source_target_shuffle_split. rewrite C1. cbn [bind]. rewrite C2. cbn [bind]. exact E. }
  apply check_all_flags in C1 as (_ & -> & L1). apply check_all_flags in C2 as (_ & E2 & _). cbn [eff_domain] in E2. subst sd2.
  apply C28_shuffle_split_exact in E0; [|intros q [<-|[]]; split; assumption]. destruct E0 as (_ & _ & F). now inversion F.
Qed.
Theorem C169_source_target_succeeds : forall ts tr rs n sd k body w a b c d, let l := eff_domain n sd in
  0 < n -> length l = n -> (forall z, rs = RSInt z -> 0 <= z < 2 ^ 32)%Z ->
  possible (how_many is_source l) ts tr -> sizes (how_many is_source l) ts tr a b ->
  possible (how_many is_target l) ts tr -> sizes (how_many is_target l) ts tr c d ->
  exists r, fst (split (SourceTarget ts tr) rs n sd k body w) = Ok r.
Proof.
  intros ts tr rs n sd k body w a b c d l Hn L V P1 S1 P2 S2. unfold SeedModel.split. cbn [prepare].
  assert (C1 : check_X_domain n sd all_flags = Ok l) by (apply check_all_flags; auto).
  assert (C2 : check_X_domain n (SDArr l) all_flags = Ok l) by (apply check_all_flags; auto).
  rewrite C1. cbn [bind]. rewrite C2. cbn [bind]. clearbody l.
  assert (N : l <> []) by (intros ->; cbn in L; lia).
  destruct (iter_indices_succeeds l ts tr [] a b c d N ltac:(easy) P1 S1 P2 S2) as (r0 & I).
  unfold iter_indices in I. unfold sides at 1. destruct (extract_source_indices l) as [m|] eqn:M; [|discriminate I]. cbn [bind] in *.
  destruct (validate_shuffle_split (length (flatnonzero m)) ts tr) as [ss|] eqn:Vs; [|discriminate I]. cbn [bind] in *.
  destruct (validate_shuffle_split (length (flatnonzero (map negb m))) ts tr) as [tt|] eqn:Vt; [|discriminate I]. cbn [bind] in *.
  assert (R : exists r, check_random_state rs = Ok r).
  { destruct rs as [|z|i]; cbn; eauto. unfold RandomState. rewrite (valid_seed z (V z eq_refl)). eauto. }
  destruct R as (r & ->). apply run_succeeds. intros g.
  set (p := ((flatnonzero m, flatnonzero (map negb m)), (ss, tt))).
  assert (Sd : sides l ts tr = Ok p) by (unfold sides; rewrite M; cbn [bind]; rewrite Vs; cbn [bind]; rewrite Vt; reflexivity).
  destruct (sides_partition l ts tr p g _ Sd eq_refl) as (ps & pt & Q1 & Q2 & E).
  destruct (iter_indices_succeeds l ts tr [(ps, pt)] a b c d N) as (r1 & I1); auto; [intros q [<-|[]]; split; assumption|].
  rewrite I1 in E. destruct (fst (partition_one G permutation p g)) as [s|e]; [eauto|discriminate E].
Qed.

(** DomainShuffleSplit. *)
Lemma draw_many_ok sizes : forall g, Forall2 is_perm sizes (fst (draw_many G permutation sizes g)).
Proof.
  induction sizes as [|n sizes IH]; intros g; [constructor|]. cbn [draw_many]. pose proof (LP n g) as H. destruct (permutation n g) as [p g1].
  specialize (IH g1). destruct (draw_many G permutation sizes g1) as [ps g2]. cbn [fst] in *. now constructor.
Qed.
Lemma floors_fixed sd u ls ks : (0 <= u)%Q -> Forall2 (fun l k => is_floor (times u (how_many (Z.eqb l) sd)) k) ls ks ->
  ks = map (fun d => under_count u (how_many (Z.eqb d) sd)) ls.
Proof.
  intros U H. induction H as [|l k ls ks H F IH]; [reflexivity|]. cbn [map]. f_equal; [|exact IH].
  eapply is_floor_unique; [exact H|]. now apply under_count_floor.
Qed.
Lemma table_perms sd ls ps : Forall2 is_perm (map (fun kv => length (snd kv)) (dom_table sd ls)) ps ->
  Forall2 (fun l p => is_perm (how_many (Z.eqb l) sd) p) ls ps.
Proof.
  unfold dom_table. rewrite map_map. revert ps. induction ls as [|l ls IH]; intros ps H; inversion H; subst; constructor; auto.
  cbn [snd] in *. now rewrite positions_length in H2.
Qed.
Theorem C169_domain_shuffle_valid : forall u ts tr rs n sd k body w l, fst (split (DomainSplit u ts tr) rs n sd k body w) = Ok l ->
  length l = k /\ Forall (under_split (eff_domain n sd) u ts tr) l.
Proof.
  intros u ts tr rs n sd k body w l. unfold SeedModel.split. cbn [prepare].
  destruct (Qle_bool 0 u && Qle_bool u 1) eqn:U; cbn [negb]; [|discriminate]. apply andb_true_iff in U as [U0 U1]. apply Qle_bool_iff in U0, U1.
  destruct (check_X_domain n sd all_flags) as [sd1|] eqn:C1; cbn [bind]; [|discriminate].
  apply check_all_flags in C1 as (_ & -> & L1).
  destruct (extract_domains_indices_st (eff_domain n sd)) as [di|] eqn:X; cbn [bind]; [|discriminate].
  destruct (check_random_state rs) as [r|]; [|discriminate]. set (e := eff_domain n sd) in *. clearbody e.
  pose proof (labels_where_unique is_source e) as W1. pose proof (labels_where_unique is_target e) as W2.
  pose proof (extract_st_ok e di _ _ X W1 W2) as ->. cbn [fst snd].
  set (so := unique (filter is_source e)) in *. set (ta := unique (filter is_target e)) in *.
  apply run_forall. intros g s H. unfold dom_draws in H.
  pose proof (draw_many_ok (map (fun kv => length (snd kv)) (dom_table e so)) g) as F1. apply table_perms in F1.
  destruct (draw_many G permutation (map (fun kv => length (snd kv)) (dom_table e so)) g) as [ps g1]. cbn [fst] in F1.
  destruct (undersample u (dom_table e so) ps) as [s0|] eqn:A; [|discriminate H].
  pose proof (draw_many_ok (map (fun kv => length (snd kv)) (dom_table e ta)) g1) as F2. apply table_perms in F2.
  destruct (draw_many G permutation (map (fun kv => length (snd kv)) (dom_table e ta)) g1) as [pt g2]. cbn [fst] in F2.
  destruct (undersample u (dom_table e ta) pt) as [t0|] eqn:B; [|discriminate H].
  pose proof (LP (length s0) g2) as P1. destruct (permutation (length s0) g2) as [a g3].
  pose proof (LP (length t0) g3) as P2. destruct (permutation (length t0) g3) as [b g4]. cbn [fst] in *.
  apply (domain_shuffle_one_ok e u ts tr (mkDomDraw ps pt a b) s (dom_table e so) (dom_table e ta) so ta); auto.
  apply undersample_ok in A as (_ & _ & _ & A); auto; [|apply StronglySorted_Zlt_NoDup, W1].
  apply undersample_ok in B as (_ & _ & _ & B); auto; [|apply StronglySorted_Zlt_NoDup, W2].
  exists so, ta. cbn [dd_s dd_t dd_shs dd_sht]. repeat (split; [assumption|]).
  split; intros ks Hk; apply (floors_fixed e u _ _ U0) in Hk; subst ks; congruence.
Qed.

(** LeaveOneDomainOut: as many different domains are left out as there are source domains and max_n_splits allows. *)
Lemma lodo_step_ok rs sd doms ts tr d w s : labels_where is_source sd doms -> In d doms ->
  fst (lodo_step G T seeded permutation rs sd doms ts tr d w) = Ok s -> SplitSpec.lodo_split sd ts tr d s.
Proof.
  intros HD Hd H. unfold lodo_step in H.
  destruct (np_take (flatnonzero (lodo_mask doms d sd)) sd) as [ssd|] eqn:E1; cbn [bind] in H; [|discriminate H].
  destruct (check_X_domain (length (flatnonzero (lodo_mask doms d sd))) (SDArr ssd) all_flags) as [sd2|] eqn:E2; cbn [bind] in H; [|discriminate H].
  destruct (sides sd2 ts tr) as [p|] eqn:E3; cbn [bind] in H; [|discriminate H].
  destruct (check_random_state rs) as [r|]; cbn [bind] in H; [|discriminate H].
  destruct (draw_value G T (partition_one G permutation p) r w) as (g & Eg).
  destruct (draw (partition_one G permutation p) r w) as [[x r'] w']. cbn [fst] in *.
  destruct (sides_partition sd2 ts tr p g x E3 (eq_sym Eg)) as (ps & pt & P1 & P2 & E).
  assert (K : lodo_one sd doms ts tr d (ps, pt) = Ok s).
  { unfold lodo_one. rewrite E1. cbn [bind]. rewrite E2. cbn [bind]. rewrite E. destruct x as [[a b]|]; [|discriminate H]. cbn [bind fst snd] in *. exact H. }
  assert (Hdp : (0 < d)%Z).
  { destruct (proj1 (proj2 HD d) Hd) as [_ Hs]. unfold is_source in Hs. apply Z.leb_le in Hs.
    assert (d <> 0)%Z; [intros -> |lia]. rewrite lodo_one_zero in K by auto. discriminate. }
  rewrite lodo_mask_positions in E1, E2. set (m := fun x => existsb (fun domain => (x =? (if (domain =? d)%Z then - domain else domain))%Z) doms) in *.
  rewrite (sub_take sd m) in E1. injection E1 as <-. apply check_all_flags in E2 as (_ & E2 & _). cbn [eff_domain] in E2. subst sd2.
  assert (Hm : forall x, In x sd -> m x = other_source d x || Z.eqb (- d) x) by (intros; now apply (lodo_sel _ _ sd)).
  rewrite how_many_filter in P1, P2.
  apply (lodo_one_ok sd doms ts tr d (ps, pt) s HD Hd); cbn [fst snd]; [| |exact K].
  - rewrite <- (how_many_ext_in (fun x => m x && is_source x) (other_source d)); [exact P1|]. intros y Hy. rewrite Hm by exact Hy. unfold other_source, is_source.
    destruct (Z.leb_spec 0 y), (Z.eqb_spec y d), (Z.eqb_spec (- d) y); cbn; auto; lia.
  - rewrite <- (how_many_ext_in (fun x => m x && is_target x) (Z.eqb (- d))); [exact P2|]. intros y Hy. rewrite Hm by exact Hy. unfold other_source, is_target.
    destruct (Z.leb_spec 0 y), (Z.eqb_spec y d), (Z.eqb_spec (- d) y), (Z.ltb_spec y 0); cbn; auto; lia.
Qed.
Theorem C169_leave_one_out_valid : forall rs n sd m ts tr body w l, fst (lodo_all rs n sd m ts tr body w) = Ok l ->
  forall doms, labels_where is_source (eff_domain n sd) doms ->
  exists ds, NoDup ds /\ incl ds doms /\ length ds = Nat.min m (length doms) /\ Forall2 (SplitSpec.lodo_split (eff_domain n sd) ts tr) ds l.
Proof.
  intros rs n sd m ts tr body w l H doms HD. unfold SeedModel.lodo_all in H. destruct (check_X_domain n sd all_flags) as [sd1|] eqn:C1; cbn [bind] in H; [|discriminate H].
  apply check_all_flags in C1 as (_ & -> & L1). set (e := eff_domain n sd) in *. clearbody e.
  assert (ED : lodo_domains e = doms) by (eapply labels_where_ext; [apply labels_where_unique|exact HD]).
  destruct (check_random_state rs) as [r|]; cbn [bind] in H; [|discriminate H]. rewrite ED in H.
  destruct (draw_value G T (permutation (length doms)) r w) as (g & Eg). pose proof (LP (length doms) g) as Lg. rewrite <- Eg in Lg.
  destruct (draw (permutation (length doms)) r w) as [[dp r'] w1]. cbn [fst] in Lg. pose proof (perm_length _ _ Lg) as Ll.
  rewrite firstn_if in H by exact Ll.
  match type of H with context [lodo_run _ _ ?s _ _ _ _] => set (step := s) in H end.
  assert (Ndp : NoDup dp) by (eapply Permutation_NoDup; [apply Permutation_sym, Lg|apply seq_NoDup]).
  assert (Ndi : NoDup (firstn m dp)) by now apply firstn_NoDup.
  assert (Bdi : forall i, In i (firstn m dp) -> i < length doms).
  { intros i Hi. apply firstn_incl in Hi. eapply Permutation_in in Hi; [|exact Lg]. apply in_seq in Hi. lia. }
  assert (Ldi : length (firstn m dp) = Nat.min m (length doms)) by (rewrite firstn_length; lia).
  assert (NDd : NoDup doms) by (apply StronglySorted_Zlt_NoDup, HD).
  set (di := firstn m dp) in *. clearbody di. clear Lg Ll Ndp Eg.
  exists (map (fun i => nth i doms 0%Z) di). split; [|split; [|split]].
  - clear - Ndi Bdi NDd. rewrite (NoDup_nth _ 0%Z) in NDd.
    induction Ndi as [|i di Hi Hn IH]; simpl; constructor.
    + intros C. apply in_map_iff in C as [j [E Hj]]. apply NDd in E; [subst; auto|apply Bdi; now right|apply Bdi; now left].
    + apply IH. intros; apply Bdi; now right.
  - intros d Hd. apply in_map_iff in Hd as [i [<- Hi]]. apply nth_In. auto.
  - now rewrite map_length.
  - clear Ldi Ndi NDd. revert w1 l H. generalize 0 as i0. induction di as [|i di IH]; intros i0 w1 l H; [injection H as <-; constructor|].
    cbn [lodo_run] in H. destruct (step i w1) as [x w'] eqn:Es. destruct x as [s|]; [|discriminate H].
    destruct (lodo_run G T step body (S i0) di (body i0 w')) as [y v] eqn:E. cbn [fst] in H. apply bind_ok in H as (l' & Hy & H). injection H as <-. subst y.
    cbn [map]. constructor.
    + unfold step in Es. destruct (nth_error doms i) as [d|] eqn:Ed; [|discriminate Es]. rewrite (nth_error_nth _ _ _ Ed).
      apply (lodo_step_ok rs e doms ts tr d w1 s HD); [eapply nth_error_In; eauto|now rewrite Es].
    + apply (IH (fun j Hj => Bdi j (or_intror Hj)) (S i0) (body i0 w') l'). now rewrite E.
Qed.

(** StratifiedDomainShuffleSplit. *)
  Hypothesis LM : lawful_mode mode.
Lemma total_map_sub a c : Forall2 (fun a c => a <= c) a c -> total (map (fun p => fst p - snd p) (combine c a)) + total a = total c.
Proof. intros H. unfold total in *. induction H as [|x y a c L F IH]; [reflexivity|]. cbn in *. lia. Qed.
Lemma how_many_groups rows gs : groups_of rows gs -> total (map (group_size rows) gs) = length rows.
Proof.
  intros HG. pose proof (groups_NoDup _ _ HG) as N. assert (I : forall r, In r rows -> In r gs) by (intros r; apply HG). clear HG.
  induction rows as [|r rows IH]; cbn [length].
  - clear. induction gs as [|g gs IH]; [reflexivity|]. exact IH.
  - rewrite <- IH by (intros; apply I; now right). assert (Ir := I r (or_introl eq_refl)). clear I IH. induction N as [|g gs Hg N IH]; [destruct Ir|].
    unfold total in *. cbn [map fold_right]. unfold group_size in *. unfold how_many in *. cbn [filter]. destruct (eq_pair g r) eqn:E.
    + apply eq_pair_true in E. subst g. cbn [length].
      assert (Z0 : map (fun g => length (filter (eq_pair g) (r :: rows))) gs = map (fun g => length (filter (eq_pair g) rows)) gs).
      { apply map_ext_in. intros h Hh. cbn [filter]. destruct (eq_pair h r) eqn:E2; [|reflexivity]. apply eq_pair_true in E2. subst h. contradiction. }
      cbn [filter] in Z0. rewrite Z0. lia.
    + destruct Ir as [->|Ir]; [exfalso; apply eq_pair_false in E; now apply E|]. cbn [filter] in IH. rewrite IH by exact Ir. lia.
Qed.
Theorem C169_stratified_valid : forall y ts tr rs n sd k body w l, fst (split (StratifiedSplit y ts tr) rs n sd k body w) = Ok l ->
  forall gs n_train n_test, let rows := combine y (eff_domain (length y) sd) in
  groups_of rows gs -> sizes (length y) ts tr n_train n_test ->
  length l = k /\ Forall (fun s => exists d, draw_ok rows gs n_train n_test d /\ strat_split rows gs n_train n_test d s) l.
Proof.
  intros y ts tr rs n sd k body w l H gs n_train n_test rows HG HS. unfold SeedModel.split in H. cbn [prepare] in H.
  destruct (check_X_domain (length y) sd all_flags) as [sd1|] eqn:C1; cbn [bind] in H; [|discriminate H].
  apply check_all_flags in C1 as (_ & -> & L1). fold rows in H.
  assert (Lr : length rows = length y) by (unfold rows; rewrite combine_length; lia).
  destruct (validate_shuffle_split (length y) ts tr) as [[a b]|] eqn:V; cbn [bind] in H; [|discriminate H].
  apply validate_ok in V as (_ & V & _). destruct (sizes_unique _ _ _ _ _ _ _ V HS) as [-> ->]. clear V.
  rewrite <- (groups_of_unique _ _ HG) in H. rewrite (strat_counts _ _ HG), (strat_argsort _ _ HG), (strat_buckets _ _) in H.
  destruct (existsb _ _); [discriminate H|]. destruct (n_train <? length gs); [discriminate H|]. destruct (n_test <? length gs); [discriminate H|].
  destruct (check_random_state rs) as [r|]; [|discriminate H]. revert H. apply run_forall. intros g s H. unfold strat_draws in H.
  set (counts := map (group_size rows) gs) in *.
  assert (Tc : total counts = length y) by (unfold counts; rewrite (how_many_groups _ _ HG); exact Lr).
  assert (S2 : n_train + n_test <= length y) by apply HS.
  destruct (LM counts n_train g) as [A1 A2]; [lia|]. destruct (mode counts n_train g) as [ni g1]. cbn [fst] in A1, A2.
  pose proof (total_map_sub _ _ A1) as A3.
  destruct (LM (map (fun p => fst p - snd p) (combine counts ni)) n_test g1) as [B1 B2]; [lia|].
  destruct (mode (map (fun p => fst p - snd p) (combine counts ni)) n_test g1) as [ti g2]. cbn [fst] in B1, B2.
  pose proof (draw_many_ok counts g2) as Dm. destruct (draw_many G permutation counts g2) as [perms g3]. cbn [fst] in Dm.
  assert (Lc : length counts = length gs) by apply map_length.
  assert (Ln : length ni = length gs) by (rewrite <- Lc; clear - A1; induction A1; cbn; lia).
  assert (Lt : length ti = length gs).
  { assert (Q : length ti = length (combine counts ni)) by (rewrite <- (map_length (fun p => fst p - snd p) (combine counts ni)); clear - B1; induction B1; cbn; lia).
    rewrite Q, combine_length. lia. }
  assert (Dp : Forall2 (fun g p => is_perm (group_size rows g) p) gs perms).
  { clear - Dm. unfold counts in Dm. clear counts. revert perms Dm. induction gs as [|g gs IH]; intros perms Dm; inversion Dm; subst; constructor; auto. }
  assert (Da : Forall2 (fun g q => fst q + snd q <= group_size rows g) gs (combine ni ti)).
  { clear - A1 B1 Lt. unfold counts in *. clear counts. revert ni ti A1 B1 Lt. induction gs as [|g gs IH]; intros ni ti A1 B1 Lt; cbn in *.
    - inversion A1; subst. constructor.
    - inversion A1; subst. cbn in B1. inversion B1; subst. cbn. constructor; [cbn; lia|]. apply IH; auto. }
  destruct (strat_groups (map (fun g0 => positions (eq_pair g0) rows) gs) perms ni ti) as [q|] eqn:Q; [|discriminate H].
  destruct (strat_groups_ok rows gs perms ni ti q (groups_NoDup _ _ HG) Da Ln Lt Dp Q) as (_ & _ & Q1 & Q2 & _).
  pose proof (LP (length (fst q)) g3) as P1. destruct (permutation (length (fst q)) g3) as [pa g4].
  pose proof (LP (length (snd q)) g4) as P2. destruct (permutation (length (snd q)) g4) as [pb g5]. cbn [fst] in *.
  exists (mkDraw ni ti perms pa pb).
  assert (DO : draw_ok rows gs n_train n_test (mkDraw ni ti perms pa pb)).
  { unfold draw_ok. cbn [dr_n dr_t dr_perms dr_train dr_test]. repeat (split; [assumption|]). split; congruence. }
  split; [exact DO|]. now apply (strat_one_ok rows gs n_train n_test _ s (groups_NoDup _ _ HG) DO).
Qed.
End Valid.
