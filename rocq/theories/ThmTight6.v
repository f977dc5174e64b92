(** Theorem added after an edited program survived: the stratified splitter refuses impossible requests for every random_state (C169). *)
From Coq Require Import List ZArith QArith Bool Arith Lia.
From Verif Require Import Np NpFacts Labels Spec SpecFacts UtilsModel UtilsSpec SelectModel SplitModel SplitSpec SplitProofs SplitProofs2 ThmSplit
  SeedModel SeedSpec ThmSeed.
Import ListNotations.
Local Open Scope nat_scope.

(** A group of a single sample, or fewer training or test samples than groups: ValueError, whatever random_state is, and no random number is drawn. *)
Theorem C169_stratified_refused : forall G T seeded permutation mode y ts tr rs n sd k body (w : world G T) gs n_train n_test,
  let rows := combine y (eff_domain (length y) sd) in
  0 < length y -> length (eff_domain (length y) sd) = length y -> groups_of rows gs -> sizes (length y) ts tr n_train n_test ->
  (exists g, In g gs /\ group_size rows g < 2) \/ n_train < length gs \/ n_test < length gs ->
  split G T seeded permutation mode (StratifiedSplit y ts tr) rs n sd k body w = (Err ValueError, w).
Proof.
  intros G T seeded permutation mode y ts tr rs n sd k body w gs n_train n_test rows Hy L HG HS Hbad. unfold SeedModel.split. cbn [prepare].
  assert (E : check_X_domain (length y) sd all_flags = Ok (eff_domain (length y) sd)) by (apply check_all_flags; auto). rewrite E. cbn [bind]. fold rows.
  destruct (validate_shuffle_split (length y) ts tr) as [[a b]|e] eqn:V; cbn [bind].
  - apply validate_ok in V as (_ & V & _). destruct (sizes_unique _ _ _ _ _ _ _ V HS) as [-> ->].
    rewrite <- (groups_of_unique _ _ HG). rewrite (strat_counts _ _ HG).
    destruct (existsb (fun c => c <? 2) (map (group_size rows) gs)) eqn:E1; [reflexivity|].
    destruct (Nat.ltb_spec n_train (length gs)); [reflexivity|]. destruct (Nat.ltb_spec n_test (length gs)); [reflexivity|].
    exfalso. destruct Hbad as [[g [Hg Hl]]|[Hl|Hl]]; [|lia|lia]. apply not_true_iff_false in E1. apply E1. apply existsb_exists. exists (group_size rows g). split; [now apply in_map|now apply Nat.ltb_lt].
  - apply validate_err in V. now rewrite V.
Qed.

(** The class 1 has a single sample in the source domain: refused with any seed. *)
Example C169_stratified_refused_ex :
  let y := [0; 0; 1]%Z in let sd := SDArr [1; 1; 1]%Z in
  groups_of (combine y (eff_domain 3 sd)) [(0, 1); (1, 1)]%Z /\ sizes 3 (SzInt 1) SzNone 2 1 /\
  group_size (combine y (eff_domain 3 sd)) (1, 1)%Z < 2 /\
  fst (split nat nat (fun z => Z.to_nat z) (fun n g => (seq 0 n, S g)) (fun c _ g => (c, g)) (StratifiedSplit y (SzInt 1) SzNone) (RSInt 3) 2 sd 1
    (fun _ w => w) (mkWorld nat nat 0 (fun _ => 0) 0)) = Err ValueError.
Proof.
  cbv zeta. split; [|split; [|split]].
  - split.
    + repeat (constructor; [|repeat (constructor; [unfold pair_lt; simpl; lia|]); constructor]). constructor.
    + intros g. simpl. intuition congruence.
  - unfold sizes. simpl. repeat split; try lia; discriminate.
  - cbn. lia.
  - reflexivity.
Qed.
