(** Theorems C28-C33: splitters and subsamplers. *)
From Coq Require Import List ZArith QArith Bool Arith Lia Sorting.Permutation Sorting.Sorted.
From Verif Require Import Np NpFacts Labels Spec SpecFacts UtilsModel UtilsSpec SelectModel SplitModel SplitSpec
  SplitProofs SplitProofs2.
Import ListNotations.
Local Open Scope nat_scope.

(** Checks that a concrete list is a permutation of 0..n-1. *)
Ltac perm_concrete :=
  match goal with
  | |- is_perm ?n ?p =>
      let n' := eval vm_compute in n in
      let p' := eval vm_compute in p in
      change (is_perm n' p'); unfold is_perm;
      apply NoDup_Permutation;
      [ repeat constructor; simpl; intuition lia | apply seq_NoDup | intros ?x; simpl; intuition lia ]
  end.

(** ** C28 *)

(** Every split returned by SourceTargetShuffleSplit has no repetition, disjoint parts, indices in range, exactly the
    requested sizes on each side, and covers everything when only one size (or none) is given. *)
Theorem C28_shuffle_split_exact : forall n sda test_size train_size perms r,
  let sd := eff_domain n sda in
  (forall p, In p perms -> is_perm (how_many is_source sd) (fst p) /\ is_perm (how_many is_target sd) (snd p)) ->
  source_target_shuffle_split n sda test_size train_size perms = Ok r ->
  length sd = n /\ length r = length perms /\ Forall (st_split sd test_size train_size) r.
Proof. intros n sda ts tr perms r sd HP H. now apply source_target_shuffle_ok. Qed.

(** It succeeds whenever the requested sizes exist on both sides. *)
Theorem C28_shuffle_split_succeeds : forall n sda test_size train_size perms a b c d,
  let sd := eff_domain n sda in
  0 < n -> length sd = n ->
  (forall p, In p perms -> is_perm (how_many is_source sd) (fst p) /\ is_perm (how_many is_target sd) (snd p)) ->
  possible (how_many is_source sd) test_size train_size -> sizes (how_many is_source sd) test_size train_size a b ->
  possible (how_many is_target sd) test_size train_size -> sizes (how_many is_target sd) test_size train_size c d ->
  exists r, source_target_shuffle_split n sda test_size train_size perms = Ok r.
Proof.
  intros n sda ts tr perms a b c d sd Hn L HP P1 S1 P2 S2. unfold source_target_shuffle_split.
  assert (E1 : check_X_domain n sda all_flags = Ok sd) by (apply check_all_flags; auto).
  assert (E2 : check_X_domain n (SDArr sd) all_flags = Ok sd) by (apply check_all_flags; auto).
  rewrite E1. cbn [bind]. rewrite E2. cbn [bind].
  eapply iter_indices_succeeds; eauto. intros E. rewrite E in L. simpl in L. lia.
Qed.

Definition sd28 : list Z := [1; -2; 1; -2; 2; 2; -3]%Z.
Example C28_ex : exists r,
  source_target_shuffle_split 7 (SDArr sd28) SzNone (SzFrac (1 # 2)) [([2; 0; 3; 1], [1; 2; 0])] = Ok r /\
  r = [([5; 2; 1], [4; 0; 3; 6])] /\
  (forall p, In p [([2; 0; 3; 1], [1; 2; 0])] ->
     is_perm (how_many is_source sd28) (fst p) /\ is_perm (how_many is_target sd28) (snd p)).
Proof.
  eexists. split; [reflexivity|]. split; [reflexivity|].
  intros p [<-|[]]. split; perm_concrete.
Qed.

(** ** C29 *)

(** The sizes are accepted exactly when the request is possible, and are then the requested ones; both parts are
    non-empty. *)
Theorem C29_sizes_exact : forall n test_size train_size n_train n_test,
  validate_shuffle_split n test_size train_size = Ok (n_train, n_test) <->
  possible n test_size train_size /\ sizes n test_size train_size n_train n_test.
Proof.
  intros. split.
  - intros H. apply validate_ok in H as (H1 & H2 & _). auto.
  - intros [H1 H2]. now apply validate_complete.
Qed.

Theorem C29_test_part_nonempty : forall n test_size train_size n_train n_test,
  validate_shuffle_split n test_size train_size = Ok (n_train, n_test) ->
  0 < n_train /\ 0 < n_test /\ n_train + n_test <= n.
Proof. intros n ts tr a b H. apply validate_ok in H as (_ & (H1 & _ & H2 & _) & H3). auto. Qed.

Theorem C29_impossible_rejected : forall n test_size train_size,
  (forall n_train n_test, ~ (possible n test_size train_size /\ sizes n test_size train_size n_train n_test)) ->
  validate_shuffle_split n test_size train_size = Err ValueError.
Proof.
  intros n ts tr H. destruct (validate_shuffle_split n ts tr) as [[a b]|e] eqn:E.
  - exfalso. apply (H a b). now apply C29_sizes_exact.
  - f_equal. now apply validate_err in E.
Qed.

Example C29_ex : validate_shuffle_split 7 (SzFrac (1 # 4)) (SzFrac (1 # 2)) = Ok (3, 2) /\
  validate_shuffle_split 7 SzNone SzNone = Ok (6, 1) /\ validate_shuffle_split 7 (SzInt 7) SzNone = Err ValueError /\
  validate_shuffle_split 7 (SzFrac (3 # 4)) (SzFrac (1 # 2)) = Err ValueError /\
  validate_shuffle_split 1 SzNone SzNone = Err ValueError.
Proof. repeat split. Qed.

(** ** C30 *)

(** Every split produced holds out one domain d: none of its source samples is used, all targets used are d's, all the
    other sources are available, with exact sizes. The held-out domains are distinct. [perms] are the draws of the first
    [length perms] splits, so the statement also covers a generator that is not run to the end. *)
Theorem C30_leave_one_domain_out : forall n sda max_n_splits test_size train_size dperm perms r doms,
  let sd := eff_domain n sda in
  labels_where is_source sd doms -> is_perm (length doms) dperm ->
  length perms <= Nat.min max_n_splits (length doms) ->
  (forall k i d p, nth_error dperm k = Some i -> nth_error doms i = Some d -> nth_error perms k = Some p ->
     is_perm (how_many (other_source d) sd) (fst p) /\ is_perm (how_many (Z.eqb (- d)) sd) (snd p)) ->
  leave_one_domain_out n sda max_n_splits test_size train_size dperm perms = Ok r ->
  exists ds, NoDup ds /\ incl ds doms /\ length ds = length perms /\
             Forall2 (lodo_split sd test_size train_size) ds r.
Proof. intros n sda mx ts tr dperm perms r doms sd. apply lodo_ok. Qed.

(** The number of splits: however many draws are available, min(max_n_splits, number of source domains). *)
Theorem C30_number_of_splits : forall n sda max_n_splits test_size train_size dperm perms r doms,
  labels_where is_source (eff_domain n sda) doms -> is_perm (length doms) dperm ->
  Nat.min max_n_splits (length doms) <= length perms ->
  leave_one_domain_out n sda max_n_splits test_size train_size dperm perms = Ok r ->
  length r = Nat.min max_n_splits (length doms) /\
  lodo_get_n_splits (eff_domain n sda) max_n_splits = length r.
Proof.
  intros n sda mx ts tr dperm perms r doms HD HP HL H. unfold leave_one_domain_out in H.
  apply bind_ok in H as [sd1 [H1 H]]. apply check_all_flags in H1 as (_ & -> & _).
  assert (ED : lodo_domains (eff_domain n sda) = doms).
  { eapply labels_where_ext; [apply labels_where_unique|exact HD]. }
  unfold lodo_get_n_splits. rewrite ED in *. apply mapM_ok_length in H. rewrite H, combine_length.
  assert (Ldp : length dperm = length doms) by (rewrite (Permutation_length HP); apply seq_length).
  destruct (Nat.ltb_spec mx (length doms)); rewrite ?firstn_length; lia.
Qed.

(** A source domain labelled 0 can never be held out: -0 = 0 is not a target label, and the run raises. *)
Theorem C30_zero_domain_raises : forall n sda max_n_splits test_size train_size dperm perms doms k i,
  labels_where is_source (eff_domain n sda) doms -> nth_error dperm k = Some i -> nth_error doms i = Some 0%Z ->
  k < length perms -> k < max_n_splits ->
  forall r, leave_one_domain_out n sda max_n_splits test_size train_size dperm perms <> Ok r.
Proof. intros n sda mx ts tr dperm perms doms k i HD H1 H2 H3 H4 r H. eapply lodo_zero_fails; eauto. Qed.

Definition sd30 : list Z := [1; 1; 2; 2; -1; -1; -2; -2]%Z.
Example C30_ex :
  leave_one_domain_out 8 (SDArr sd30) 5 SzNone SzNone [1; 0] [([1; 0], [0; 1]); ([0; 1], [1; 0])] =
    Ok [([0; 7], [1; 6]); ([3; 4], [2; 5])] /\
  labels_where is_source sd30 [1; 2]%Z /\ is_perm 2 [1; 0].
Proof.
  split; [reflexivity|]. split; [|perm_concrete]. split; [repeat constructor|].
  intros d. unfold sd30, is_source. rewrite Z.leb_le. simpl. intuition lia.
Qed.
Example C30_zero_ex :
  leave_one_domain_out 6 (SDArr [0; 0; 1; 1; -1; -1]%Z) 2 SzNone SzNone [1; 0] [([1; 0], [0; 1]); ([0; 1], [1; 0])] = Err ValueError.
Proof. reflexivity. Qed.

(** ** C31 *)

(** With the allocations and permutations of every draw meeting their contract: exact sizes, all distinct, in range, and
    every (label, domain) group contributes exactly its allocation. *)
Theorem C31_stratified_groups_exact : forall y sda test_size train_size draws r gs n_train n_test,
  let sd := eff_domain (length y) sda in
  groups_of (combine y sd) gs -> sizes (length y) test_size train_size n_train n_test ->
  Forall (draw_ok (combine y sd) gs n_train n_test) draws ->
  stratified_domain_shuffle_split y sda test_size train_size draws = Ok r ->
  length sd = length y /\ Forall2 (strat_split (combine y sd) gs n_train n_test) draws r.
Proof.
  intros y sda ts tr draws r gs n_train n_test sd HG HS HD H.
  assert (HC : 0 < length y /\ length sd = length y).
  { unfold stratified_domain_shuffle_split in H. apply bind_ok in H as [sd1 [H1 _]].
    apply check_all_flags in H1 as (? & -> & ?). auto. }
  destruct HC as [Hy L]. split; auto.
  rewrite (strat_reduce y sda ts tr draws gs Hy L HG) in H. fold sd in H.
  apply bind_ok in H as [[a b] [Hv H]]. apply validate_ok in Hv as (_ & Hv & _).
  destruct (sizes_unique _ _ _ _ _ _ _ Hv HS) as [-> ->].
  destruct (existsb _ _); [discriminate|]. destruct (_ <? _); [discriminate|]. destruct (_ <? _); [discriminate|].
  apply mapM_ok_iff in H. pose proof (groups_NoDup _ _ HG) as N. clear - H HD N.
  induction H as [|d q draws r H1 H IH]; constructor.
  - apply strat_one_ok; auto. now apply Forall_inv in HD.
  - apply IH. now apply Forall_inv_tail in HD.
Qed.

(** It succeeds when the request is possible, every group has two members and both sizes reach the number of groups. *)
Theorem C31_stratified_succeeds : forall y sda test_size train_size draws gs n_train n_test,
  let sd := eff_domain (length y) sda in
  0 < length y -> length sd = length y ->
  groups_of (combine y sd) gs -> possible (length y) test_size train_size ->
  sizes (length y) test_size train_size n_train n_test ->
  Forall (fun g => 2 <= group_size (combine y sd) g) gs -> length gs <= n_train -> length gs <= n_test ->
  Forall (draw_ok (combine y sd) gs n_train n_test) draws ->
  exists r, stratified_domain_shuffle_split y sda test_size train_size draws = Ok r.
Proof.
  intros y sda ts tr draws gs n_train n_test sd Hy L HG HP HS HF L1 L2 HD.
  rewrite (strat_reduce y sda ts tr draws gs Hy L HG). fold sd.
  rewrite (validate_complete _ _ _ _ _ HP HS). cbn [bind].
  replace (existsb (fun c => c <? 2) (map (group_size (combine y sd)) gs)) with false.
  2:{ symmetry. apply not_true_is_false. intros C. apply existsb_exists in C as [c [Hc Hlt]].
      apply in_map_iff in Hc as [g [<- Hg]]. rewrite Forall_forall in HF. apply HF in Hg. apply Nat.ltb_lt in Hlt. lia. }
  destruct (Nat.ltb_spec n_train (length gs)); [lia|]. destruct (Nat.ltb_spec n_test (length gs)); [lia|].
  pose proof (groups_NoDup _ _ HG) as N. clear - HD N.
  induction HD as [|d draws Hd HD IH]; simpl; [eauto|].
  destruct (strat_one_succeeds _ _ _ _ _ N Hd) as [q ->]. cbn [bind]. destruct IH as [r ->]. cbn [bind]. eauto.
Qed.

(** Groups with fewer than two members, and sizes below the number of groups, are rejected. *)
Theorem C31_stratified_rejects : forall y sda test_size train_size draws gs n_train n_test,
  let sd := eff_domain (length y) sda in
  0 < length y -> length sd = length y ->
  groups_of (combine y sd) gs -> sizes (length y) test_size train_size n_train n_test ->
  (exists g, In g gs /\ group_size (combine y sd) g < 2) \/ n_train < length gs \/ n_test < length gs ->
  stratified_domain_shuffle_split y sda test_size train_size draws = Err ValueError.
Proof.
  intros y sda ts tr draws gs n_train n_test sd Hy L HG HS Hbad.
  rewrite (strat_reduce y sda ts tr draws gs Hy L HG). fold sd.
  destruct (validate_shuffle_split (length y) ts tr) as [[a b]|e] eqn:E; cbn [bind];
    [|f_equal; now apply validate_err in E].
  apply validate_ok in E as (_ & Hv & _). destruct (sizes_unique _ _ _ _ _ _ _ Hv HS) as [-> ->].
  destruct (existsb (fun c => c <? 2) (map (group_size (combine y sd)) gs)) eqn:E1; auto.
  destruct (Nat.ltb_spec n_train (length gs)); auto. destruct (Nat.ltb_spec n_test (length gs)); auto.
  exfalso. destruct Hbad as [[g [Hg Hl]]|[Hl|Hl]]; [|lia|lia].
  apply not_true_iff_false in E1. apply E1. apply existsb_exists. exists (group_size (combine y sd) g).
  split; [now apply in_map|now apply Nat.ltb_lt].
Qed.

Definition y31 : list Z := [0; 1; 0; 1; 0; 0; 0; 1; 1]%Z.
Definition sd31 : list Z := [1; 1; 1; 1; -2; -2; 1; -2; -2]%Z.
Definition gs31 : list (Z * Z) := [(0, -2); (0, 1); (1, -2); (1, 1)]%Z.
Definition draw31 : strat_draw :=
  mkDraw [1; 1; 1; 1] [1; 1; 1; 1] [[1; 0]; [2; 0; 1]; [0; 1]; [1; 0]] [3; 1; 0; 2] [0; 1; 2; 3].
Example C31_ex :
  stratified_domain_shuffle_split y31 (SDArr sd31) (SzInt 4) (SzInt 4) [draw31] = Ok [([3; 6; 5; 7], [4; 0; 8; 1])] /\
  groups_of (combine y31 sd31) gs31 /\ sizes 9 (SzInt 4) (SzInt 4) 4 4 /\ draw_ok (combine y31 sd31) gs31 4 4 draw31.
Proof.
  split; [reflexivity|]. split; [|split].
  - split.
    + repeat (constructor; [|repeat (constructor; [unfold pair_lt; simpl; lia|]); constructor]). constructor.
    + intros g. unfold gs31, y31, sd31. simpl. intuition congruence.
  - unfold sizes. simpl. repeat split; try lia; discriminate.
  - unfold draw_ok. repeat split; try (cbn; repeat constructor; fail); try perm_concrete.
    unfold draw31, gs31; cbn [dr_perms]. repeat (constructor; [perm_concrete|]). constructor.
Qed.

(** ** C32 *)

Theorem C32_domain_shuffle_split : forall n sda u test_size train_size draws r,
  let sd := eff_domain n sda in
  Forall (dom_draw_ok sd u) draws ->
  domain_shuffle_split n sda u test_size train_size draws = Ok r ->
  length sd = n /\ length r = length draws /\ Forall (under_split sd u test_size train_size) r.
Proof. intros n sda u ts tr draws r sd HD H. now apply domain_shuffle_ok in H as (_ & H). Qed.

Theorem C32_fraction_range : forall n sda u test_size train_size draws,
  ~ (0 <= u <= 1)%Q -> domain_shuffle_split n sda u test_size train_size draws = Err ValueError.
Proof.
  intros n sda u ts tr draws H. unfold domain_shuffle_split.
  destruct (Qle_bool 0 u && Qle_bool u 1) eqn:E; auto.
  apply andb_true_iff in E as [U0 U1]. apply Qle_bool_iff in U0, U1. tauto.
Qed.

Definition sd32 : list Z := [1; 1; 1; 1; 2; 2; -3; -3; -3; -3]%Z.
Definition draw32 : dom_draw := mkDomDraw [[3; 1; 0; 2]; [1; 0]] [[0; 2; 1; 3]] [2; 0; 3; 1] [1; 0; 2].
Example C32_ex :
  domain_shuffle_split 10 (SDArr sd32) (3 # 4) (SzFrac (1 # 3)) SzNone [draw32] = Ok [([5; 1; 6; 7], [0; 3; 8])].
Proof. vm_compute. reflexivity. Qed.
Example C32_draw_ex : dom_draw_ok sd32 (3 # 4) draw32.
Proof.
  exists [1; 2]%Z, [-3]%Z. split; [|split; [|split; [|split; [|split]]]].
  - split; [repeat constructor|]. intros d. unfold sd32, is_source. rewrite Z.leb_le. simpl. intuition lia.
  - split; [repeat constructor|]. intros d. unfold sd32, is_target. rewrite Z.ltb_lt. simpl. intuition lia.
  - repeat (constructor; [perm_concrete|]). constructor.
  - repeat (constructor; [perm_concrete|]). constructor.
  - intros ks H. inversion H as [|? k1 ? ks1 H1 H2]; subst. inversion H2 as [|? k2 ? ks2 H3 H4]; subst. inversion H4; subst.
    rewrite floor_spec in H1. rewrite floor_spec in H3.
    assert (k1 = 3) by (apply Nat2Z.inj; rewrite H1; reflexivity).
    assert (k2 = 1) by (apply Nat2Z.inj; rewrite H3; reflexivity). subst k1 k2. perm_concrete.
  - intros ks H. inversion H as [|? k1 ? ks1 H1 H2]; subst. inversion H2; subst.
    rewrite floor_spec in H1. assert (k1 = 3) by (apply Nat2Z.inj; rewrite H1; reflexivity). subst k1. perm_concrete.
Qed.

(** ** C33 *)

Lemma keep_all_spec ts n : keep_all ts n = true <-> at_least ts n.
Proof.
  destruct ts; simpl; [easy| |].
  - apply Z.leb_le.
  - apply Qle_bool_iff.
Qed.

(** One and the same list of indices for X, y, sample_domain and sample_weight. *)
Theorem C33_subsample_aligned : forall (R : Type) k train_size idx (X : list R) y sd sw o,
  subsample k train_size idx X y sd sw = Ok o ->
  ~ at_least train_size (length X) ->
  exists i sd2, check_X_y_domain (length X) y (match sd with Some l => SDArr l | None => SDNone end) true all_flags = Ok sd2 /\
    idx sd2 = Ok i /\
    Forall2 (fun j x => nth_error X j = Some x) i (so_X o) /\
    Forall2 (fun j v => nth_error y j = Some v) i (so_y o) /\
    (exists d, so_sd o = Some d /\ Forall2 (fun j v => nth_error sd2 j = Some v) i d) /\
    match sw with
    | None => so_sw o = None
    | Some w => exists w', so_sw o = Some w' /\ Forall2 (fun j v => nth_error w j = Some v) i w'
    end.
Proof.
  intros R k ts idx X y sd sw o H Hk. unfold subsample in H.
  apply bind_ok in H as [sd2 [Hc H]]. rewrite <- keep_all_spec in Hk. apply not_true_is_false in Hk. rewrite Hk in H.
  destruct ts as [|z|q]; [discriminate| |];
    (apply bind_ok in H as [i [Hi H]]; apply bind_ok in H as [X' [HX H]]; apply bind_ok in H as [y' [Hy H]];
     apply bind_ok in H as [d [Hd H]]; apply bind_ok in H as [w [Hw H]]; injection H as <-;
     exists i, sd2; apply np_take_ok_iff in HX, Hy, Hd;
     split; [exact Hc|]; split; [exact Hi|]; split; [exact HX|]; split; [exact Hy|]; split; [exists d; split; [reflexivity|exact Hd]|];
     destruct sw as [w0|]; cbn [opt_map] in Hw;
     [apply bind_ok in Hw as [w1 [Hw Hw']]; inversion Hw'; subst w; apply np_take_ok_iff in Hw; exists w1; split; [reflexivity|exact Hw]
     |inversion Hw; reflexivity]).
Qed.

(** A train_size of at least the number of samples leaves everything unchanged; transform is the identity. *)
Theorem C33_keep_all_unchanged : forall (R : Type) k train_size idx (X : list R) y sd sw o,
  at_least train_size (length X) ->
  subsample k train_size idx X y sd sw = Ok o ->
  so_X o = X /\ so_y o = y /\ so_sw o = sw /\
  (forall l, sd = Some l -> so_sd o = Some l) /\ (k <> Stratified -> so_sd o = sd) /\ sub_transform X = X.
Proof.
  intros R k ts idx X y sd sw o Hz H. unfold subsample in H.
  apply bind_ok in H as [sd2 [Hc H]]. apply keep_all_spec in Hz. rewrite Hz in H.
  assert (H' : Ok (mkSub X y (match k with Stratified => Some sd2 | _ => sd end) sw) = Ok o) by (destruct ts; [discriminate|exact H|exact H]).
  clear H. injection H' as <-; cbn. repeat split; auto.
  - intros l ->. destruct k; auto. f_equal.
    unfold check_X_y_domain in Hc. repeat match type of Hc with (if ?b then _ else _) = _ => destruct b; [discriminate|] end.
    cbn [bind] in Hc. apply bind_ok in Hc as [m [_ Hc]]. unfold check_flags, raise_if, all_flags in Hc. simpl in Hc. congruence.
  - destruct k; congruence.
Qed.

(** The index lists are duplicate-free, in range and of the requested size: Subsampler (a slice of a permutation) ... *)
Theorem C33_plain_indices_distinct : forall n train_size p sd i, is_perm n p ->
  plain_idx n train_size p sd = Ok i ->
  NoDup i /\ Forall (fun j => j < n) i /\ exists n_test, sizes n SzNone train_size (length i) n_test.
Proof.
  intros n ts p sd i HP H. unfold plain_idx in H. apply bind_ok in H as [[a b] [Hv H]]. cbn [fst snd] in H.
  injection H as <-. apply validate_ok in Hv as (_ & HS & _).
  assert (N : NoDup p) by (eapply Permutation_NoDup; [apply Permutation_sym, HP|apply seq_NoDup]).
  assert (L : length p = n) by (rewrite (Permutation_length HP); apply seq_length).
  assert (HL : a + b <= n) by apply HS. split; [|split].
  - rewrite <- (firstn_skipn b p) in N. unfold slice. apply firstn_NoDup.
    clear - N. induction (firstn b p); simpl in N; auto. inversion N; auto.
  - apply Forall_forall. intros j Hj. apply slice_incl in Hj. apply (Permutation_in _ HP) in Hj. apply in_seq in Hj. lia.
  - exists b. rewrite slice_length by lia. exact HS.
Qed.

(** ... and StratifiedDomainSubsampler, which moreover takes from every (label, domain) group its allocation. *)
Theorem C33_stratified_indices_distinct : forall y train_size d sd i gs n_train n_test,
  groups_of (combine y sd) gs -> sizes (length y) SzNone train_size n_train n_test ->
  draw_ok (combine y sd) gs n_train n_test d ->
  stratified_idx y train_size d sd = Ok i ->
  NoDup i /\ Forall (fun j => j < length y) i /\ length i = n_train /\
  (forall k g, nth_error gs k = Some g -> group_in (combine y sd) g i = nth k (dr_n d) 0).
Proof.
  intros y ts d sd i gs n_train n_test HG HS HD H. unfold stratified_idx in H.
  apply bind_ok in H as [r [Hr H]].
  apply (C31_stratified_groups_exact y (SDArr sd) SzNone ts [d] r gs n_train n_test HG HS) in Hr; [|auto].
  destruct Hr as [L F]. simpl eff_domain in *. inversion F as [|? [tr te] ? ? S1 F']; subst. injection H as ->.
  destruct S1 as ([N B] & L1 & _ & G). rewrite combine_length in B.
  split; [|split; [|split]]; auto.
  - clear - N. induction i as [|a i IH]; [constructor|]. simpl in N. inversion N as [|? ? Ha N']; subst.
    constructor; auto. intros C. apply Ha, in_or_app. auto.
  - apply Forall_app in B as [B _]. eapply Forall_impl; [|exact B]. simpl. intros; lia.
  - intros k g Hk. now apply G.
Qed.

Example C33_ex : subsample (R := nat) Plain (SzInt 2) (plain_idx 4 (SzInt 2) [3; 1; 0; 2])
    [10; 11; 12; 13] [VNum 0; VNum 1; VNum (inject_Z (-1)); VNum 0] None (Some [VNum 5; VNum 6; VNum 7; VNum 8])
  = Ok (mkSub [10; 12] [VNum 0; VNum (inject_Z (-1))] (Some [1; -2]%Z) (Some [VNum 5; VNum 7])).
Proof. reflexivity. Qed.
