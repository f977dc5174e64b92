(** Theorem C169, continued: shuffled data sets, generated data sets, the clustering of the deep methods, and examples. *)
From Coq Require Import List ZArith QArith Bool Arith Lia Sorting.Permutation Sorting.Sorted.
From Verif Require Import Np NpFacts Labels Spec SpecFacts UtilsModel UtilsSpec SelectModel SplitModel SplitSpec SplitProofs SplitProofs2 ThmSplit
  SeedModel SeedSpec ThmSeed.
Import ListNotations.
Local Open Scope nat_scope.

Section Data.
  Variables G T : Type.
  Variable seeded : Z -> G.
  Variable permutation : nat -> G -> list nat * G.
  Variable choice_with : nat -> nat -> G -> list nat * G.
  Notation world := (world G T).
  Notation load_domain := (load_domain G T seeded permutation).
  Notation make_dataset := (make_dataset G T seeded).

Lemma once_value {A} (p : G -> res A * G) rs w x : fst (once G T seeded p rs w) = Ok x -> exists g, fst (p g) = Ok x.
Proof.
  unfold once. destruct (check_random_state G seeded rs) as [r|]; [|discriminate]. destruct (draw_value G T p r w) as (g & Eg).
  destruct (draw G T p r w) as [[y r'] w']. cbn [fst] in *. intros ->. exists g. now symmetry.
Qed.
Lemma take_combine {A B} p : forall (X X' : list A) (y y' : list B), np_take p X = Ok X' -> np_take p y = Ok y' -> np_take p (combine X y) = Ok (combine X' y').
Proof.
  intros X X' y y' H1 H2. apply np_take_ok_iff in H1, H2. apply np_take_ok_iff. revert y' H2. induction H1 as [|i a p X' E H1 IH]; intros y' H2; inversion H2; subst; [constructor|].
  cbn [combine]. constructor; [|now apply IH].
  assert (C : forall (X : list A) (y : list B) i a b, nth_error X i = Some a -> nth_error y i = Some b -> nth_error (combine X y) i = Some (a, b)).
  { clear. induction X as [|x X IH]; intros [|z y] [|i] a b E1 E2; cbn in *; try discriminate; [congruence|eauto]. }
  eauto.
Qed.
(** Loading with shuffle=True reorders the samples, each with its own label. *)
Theorem C169_shuffle_keeps_pairs : forall A B (X : list A) (y : list B) sh rs w X' y', lawful_permutation permutation -> length X = length y ->
  fst (load_domain sh rs X y w) = Ok (X', y') -> Permutation (combine X' y') (combine X y) /\ length X' = length X /\ length y' = length y.
Proof.
  intros A B X y sh rs w X' y' LP L H. unfold SeedModel.load_domain in H. destruct sh.
  2:{ injection H as <- <-. split; [apply Permutation_refl|auto]. }
  apply once_value in H as (g & H). pose proof (LP (length X) g) as P. destruct (permutation (length X) g) as [p g']. cbn [fst] in *.
  apply bind_ok in H as (X1 & H1 & H). apply bind_ok in H as (y1 & H2 & H). injection H as <- <-.
  pose proof (take_combine p _ _ _ _ H1 H2) as H3. apply np_take_length in H1 as L1. apply np_take_length in H2 as L2. pose proof (perm_length _ _ P) as L3.
  split; [|lia]. eapply take_perm_ok; [|exact H3]. rewrite combine_length. now replace (Nat.min (length X) (length y)) with (length X) by lia.
Qed.

(** Generated data sets: reproducible with an integer, whatever the system's entropy is; numpy's generator is neither read nor changed. *)
Theorem C169_generated_int : forall A (p : G -> res A * G) entropy entropy' z w w',
  fst (make_dataset entropy p (RSInt z) w) = fst (make_dataset entropy' p (RSInt z) w') /\ snd (make_dataset entropy p (RSInt z) w) = w.
Proof.
  intros A p e e' z w w'. unfold SeedModel.make_dataset, numpy_RandomState, RandomState. destruct ((0 <=? z) && (z <? 2 ^ 32))%Z; [|split; reflexivity].
  cbn [draw]. destruct (p (seeded z)). split; reflexivity.
Qed.
(** The documented RandomState instance is refused. *)
Theorem C169_generated_instance_refuted : forall A (p : G -> res A * G) entropy i w, make_dataset entropy p (RSInstance i) w = (Err TypeError, w).
Proof. reflexivity. Qed.
(** np.random.seed has no effect on them: without random_state the result is that of the system's entropy. *)
Theorem C169_generated_none : forall A (p : G -> res A * G) entropy w, make_dataset entropy p RSNone w = (fst (p entropy), w).
Proof. intros A p e w. unfold SeedModel.make_dataset, numpy_RandomState. cbn [draw]. destruct (p e). reflexivity. Qed.

(** The random_state of SphericalKMeans has no effect. *)
  Variable randperm : nat -> T -> list nat * T.
Theorem C169_clustering_ignores_seed_refuted : forall C (single : list nat -> Q * C) n k n_init rs rs' w,
  spherical_fit G T randperm C single n k n_init rs w = spherical_fit G T randperm C single n k n_init rs' w.
Proof. reflexivity. Qed.
End Data.

(** ** Examples: generators that alternate between the identity and the reversal. *)
Definition toy_perm (n : nat) (g : nat) : list nat * nat := (if Nat.even g then seq 0 n else rev (seq 0 n), S g).
Definition toy_world (g t : nat) : world nat nat := mkWorld nat nat g (fun _ => g) t.
Lemma toy_lawful : lawful_permutation toy_perm.
Proof. intros n g. unfold toy_perm, is_perm. cbn [fst]. destruct (Nat.even g); [apply Permutation_refl|apply Permutation_sym, Permutation_rev]. Qed.
Definition toy_mode (counts : list nat) (n : nat) (g : nat) : list nat * nat :=
  (snd (fold_left (fun a c => let k := Nat.min c (fst a) in (fst a - k, snd a ++ [k])) counts (n, [])), g).

(** The default of the fetch functions is documented as 0; with it a shuffled data set would be the same in every process. It is None. *)
Theorem C169_fetch_default_refuted : exists (w w' : world nat nat) (X : list nat), 
  fst (load_domain nat nat Z.to_nat toy_perm true fetch_default X X w) <> fst (load_domain nat nat Z.to_nat toy_perm true fetch_default X X w') /\
  fst (load_domain nat nat Z.to_nat toy_perm true (RSInt 0) X X w) = fst (load_domain nat nat Z.to_nat toy_perm true (RSInt 0) X X w').
Proof. exists (toy_world 0 0), (toy_world 1 0), [7; 8; 9]. split; [vm_compute; congruence|reflexivity]. Qed.
(** Two fits of SphericalKMeans with the same integer random_state, one after the other, find different centroids. *)
Theorem C169_clustering_refuted : exists (w : world nat nat) (single : list nat -> Q * list nat),
  let r := spherical_fit nat nat toy_perm (list nat) single 3 1 1 (RSInt 0) w in
  fst r <> fst (spherical_fit nat nat toy_perm (list nat) single 3 1 1 (RSInt 0) (snd r)).
Proof. exists (toy_world 0 0), (fun l => (0%Q, l)). vm_compute. congruence. Qed.

Definition toy_sd : list Z := [1; 1; 2; 2; -3; -3]%Z.
Example C169_ex :
  let st := split nat nat Z.to_nat toy_perm toy_mode (SourceTarget SzNone (SzFrac (1 # 2))) in
  (* two splits with a seed, whatever the caller does in between *)
  fst (st (RSInt 4) 6 (SDArr toy_sd) 2 idle (toy_world 9 9)) = Ok [([2; 3; 4], [0; 1; 5]); ([2; 3; 4], [0; 1; 5])] /\
  st (RSInt 4) 6 (SDArr toy_sd) 2 (fun _ w => toy_world (S (w_global _ _ w)) 5) (toy_world 9 9) =
    (Ok [([2; 3; 4], [0; 1; 5]); ([2; 3; 4], [0; 1; 5])], toy_world 11 5) /\
  (* without a seed they depend on numpy's generator and change it *)
  w_global _ _ (snd (st RSNone 6 (SDArr toy_sd) 2 idle (toy_world 9 9))) = 13 /\
  fst (st RSNone 6 (SDArr toy_sd) 1 idle (toy_world 9 9)) = Ok [([1; 0; 5], [3; 2; 4])] /\
  (* an invalid seed *)
  st (RSInt (-1)) 6 (SDArr toy_sd) 2 idle (toy_world 9 9) = (Err ValueError, toy_world 9 9) /\
  fst (split nat nat Z.to_nat toy_perm toy_mode (DomainSplit 1 SzNone (SzFrac (1 # 2))) (RSInstance 2) 6 (SDArr toy_sd) 1 idle (toy_world 0 0)) =
    Ok [([1; 0; 5], [2; 3; 4])] /\
  fst (split nat nat Z.to_nat toy_perm toy_mode (StratifiedSplit [0; 0; 0; 0; 0; 0]%Z SzNone (SzFrac (1 # 2))) (RSInt 3) 6 (SDArr toy_sd) 1 idle (toy_world 0 0)) =
    Ok [([5; 4; 0], [2; 3; 1])] /\
  fst (lodo_all nat nat Z.to_nat toy_perm (RSInt 4) 8 (SDArr [1; 1; 2; 2; -1; -1; -2; -2]%Z) 5 SzNone SzNone idle (toy_world 0 0)) =
    Ok [([3; 4], [2; 5]); ([1; 6], [0; 7])] /\
  fst (kliep_fit_seeded nat nat Z.to_nat toy_perm (fun n k g => (repeat (g mod n) k, S g)) nat nat nat (fun gm s t c => Ok (gm + length c))
         (fun gm l => Ok (inject_Z (Z.of_nat gm))) (fun l => match l with (g, _) :: _ => Ok g | [] => Err ValueError end) 2 (inr [3; 4]) [1; 2]
         [5; 6; 7] [[5; 6]; [6; 7]] (RSInt 1) (toy_world 0 0)) = Ok (3, (5, [6; 6])).
Proof. cbv zeta. repeat match goal with |- _ /\ _ => split end; vm_compute; reflexivity. Qed.
