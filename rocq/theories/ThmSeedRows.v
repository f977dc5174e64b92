(** C169, C33 and C48: what the seeded draws are, whatever random_state is: shuffles, pairings, splits and subsamples of the samples. *)
From Coq Require Import List ZArith QArith Bool Arith Lia Sorting.Permutation.
From Verif Require Import Np NpFacts Labels Spec SpecFacts UtilsModel UtilsSpec SelectModel SplitModel SplitSpec SplitProofs SplitProofs2 ThmSplit SeedModel SeedSpec ThmSeed.
Import ListNotations.
Local Open Scope nat_scope.

Section Rows.
  Variables G T : Type.
  Variable seeded : Z -> G.
  Variable permutation : nat -> G -> list nat * G.
  Lemma once_ok {A} (p : G -> res A * G) rs w x : fst (once G T seeded p rs w) = Ok x -> exists g, fst (p g) = Ok x.
  Proof.
    unfold once. destruct (check_random_state G seeded rs) as [r|]; [|discriminate]. destruct r as [|i|g0]; cbn [draw];
      match goal with |- context [p ?g] => intros H; exists g; destruct (p g); cbn [fst] in *; exact H end.
  Qed.
  (** Shuffles of arrays keep the rows of the two arrays together; a pairing is a rearrangement. *)
Theorem C169_shuffle_rows : (forall n g, is_perm n (fst (permutation n g))) -> forall A B (X : list A) (y : list B) rs w X' y', length X = length y ->
    fst (shuffle_arrays G T seeded permutation X y rs w) = Ok (X', y') -> Permutation (combine X y) (combine X' y') /\ length X' = length X /\ length y' = length y.
  Proof.
    intros HP A B X y rs w X' y' L H. unfold shuffle_arrays in H. apply once_ok in H as [g H]. specialize (HP (length X) g). destruct (permutation (length X) g) as [p g']. cbn [fst] in *.
    apply bind_ok in H as [X1 [HX H]]. apply bind_ok in H as [y1 [Hy H]]. injection H as <- <-. apply np_take_ok_iff in HX, Hy.
    assert (LX : length X1 = length p). { clear - HX. induction HX; cbn; auto. } assert (Ly : length y1 = length p). { clear - Hy. induction Hy; cbn; auto. }
    assert (Lp : length p = length X) by (rewrite (Permutation_length HP); apply seq_length).
    split; [|lia].
    assert (F : Forall2 (fun j q => nth_error (combine X y) j = Some q) p (combine X1 y1)).
    { clear - HX Hy. assert (N : forall j x z, nth_error X j = Some x -> nth_error y j = Some z -> nth_error (combine X y) j = Some (x, z)).
      { clear. revert y. induction X as [|a X IH]; intros [|b y] [|j] x z H1 H2; cbn in *; try discriminate; [congruence|]. now apply IH. }
      revert y1 Hy. induction HX as [|j x p X1 H1 H IH]; intros y1 Hy; inversion Hy; subst; cbn; constructor; auto. }
    assert (E : Forall2 (fun j q => nth_error (combine X y) j = Some q) (seq 0 (length X)) (combine X y)).
    { assert (K : forall (l : list (A * B)) pre, Forall2 (fun j q => nth_error (pre ++ l) j = Some q) (seq (length pre) (length l)) l).
      { induction l as [|a l IH]; intros pre; cbn; constructor.
        - rewrite nth_error_app2 by lia. now rewrite Nat.sub_diag.
        - specialize (IH (pre ++ [a])). rewrite app_length, <- app_assoc in IH. cbn in IH. now rewrite Nat.add_1_r in IH. }
      specialize (K (combine X y) []). cbn in K. rewrite combine_length, <- L, Nat.min_id in K. exact K. }
    clear - HP F E.
    assert (K : forall (f : nat -> option (A * B)) q l, Forall2 (fun j x => f j = Some x) q l -> flat_map (fun j => match f j with Some x => [x] | None => [] end) q = l).
    { intros f q l Q. induction Q as [|j x q l H Q IH]; cbn; [reflexivity|]. rewrite H, IH. reflexivity. }
    rewrite <- (K _ _ _ E) at 1. rewrite <- (K _ _ _ F). apply Permutation_flat_map. symmetry. exact HP.
  Qed.
Theorem C169_pairing : (forall n g, is_perm n (fst (permutation n g))) -> forall n rs w p, fst (mixval_pairs G T seeded permutation n rs w) = Ok p -> is_perm n p.
  Proof. intros HP n rs w p H. unfold mixval_pairs in H. apply once_ok in H as [g H]. specialize (HP n g). destruct (permutation n g). cbn [fst] in *. injection H as <-. exact HP. Qed.
  (** The two parts of the sources DEV trains and validates on: all samples, each in one part, a third (rounded up) for validation. *)
Theorem C48_parts : (forall n g, is_perm n (fst (permutation n g))) -> forall n rs w train val, fst (dev_parts G T seeded permutation n rs w) = Ok (train, val) ->
    Permutation (train ++ val) (seq 0 n) /\ 0 < length train /\ 0 < length val /\ is_ceil (times (33 # 100) n) (length val).
  Proof.
    intros HP n rs w train val H. unfold dev_parts in H. apply once_ok in H as [g H]. specialize (HP n g). destruct (validate_shuffle_split n (SzFrac (33 # 100)) SzNone) as [[a b]|] eqn:V; [|discriminate].
    destruct (permutation n g) as [p g']. cbn [fst snd] in *. injection H as <- <-. apply validate_ok in V as (_ & (A & _ & AB & C & D & _) & B).
    assert (L : length p = n) by (rewrite (Permutation_length HP); apply seq_length).
    assert (S : slice b (b + a) p = skipn b p). { unfold slice. replace (b + a - b) with a by lia. apply firstn_all2. rewrite skipn_length. lia. }
    rewrite S, skipn_length, firstn_length, Nat.min_l by lia. split; [|split; [lia|split; [lia|exact C]]].
    transitivity p; [|exact HP]. transitivity (firstn b p ++ skipn b p); [apply Permutation_app_comm|now rewrite firstn_skipn].
  Qed.
  (** The rows Subsampler keeps: all of them, or as many different ones as train_size says. *)
Theorem C33_seeded_rows : (forall n g, is_perm n (fst (permutation n g))) -> forall n ts rs w i, fst (subsampler_rows G T seeded permutation n ts rs w) = Ok i ->
    NoDup i /\ Forall (fun j => j < n) i /\ (at_least ts n -> i = seq 0 n) /\ (~ at_least ts n -> exists n_test, sizes n SzNone ts (length i) n_test).
  Proof.
    intros HP n ts rs w i H. unfold subsampler_rows in H. apply once_ok in H as [g H]. specialize (HP n g). destruct (keep_all ts n) eqn:K.
    - apply keep_all_spec in K. injection H as <-. split; [apply seq_NoDup|]. split; [apply Forall_forall; intros j Hj; apply in_seq in Hj; lia|]. split; [reflexivity|contradiction].
    - assert (NK : ~ at_least ts n) by (rewrite <- keep_all_spec; congruence).
      assert (E : plain_idx n ts (fst (permutation n g)) [] = Ok i). { unfold plain_idx. destruct (validate_shuffle_split n SzNone ts) as [nn|]; [|discriminate]. destruct (permutation n g). exact H. }
      destruct (C33_plain_indices_distinct n ts _ [] i HP E) as (N & F & S). split; [exact N|]. split; [exact F|]. split; [contradiction|auto].
  Qed.
End Rows.

(** Rotating the samples by one, from five samples. *)
Example C169_rows_ex : let perm := fun n (g : Z) => (map (fun i => (i + 1) mod n) (seq 0 n), g) in
  fst (dev_parts Z unit (fun z => z) perm 5 (RSInt 3) (mkWorld Z unit 0%Z (fun _ => 0%Z) tt)) = Ok ([3; 4; 0], [1; 2]) /\
  fst (subsampler_rows Z unit (fun z => z) perm 5 (SzInt 2) (RSInt 3) (mkWorld Z unit 0%Z (fun _ => 0%Z) tt)) = Ok [4; 0] /\
  fst (shuffle_arrays Z unit (fun z => z) perm [1; 2; 3] [10; 20; 30] (RSInt 3) (mkWorld Z unit 0%Z (fun _ => 0%Z) tt)) = Ok ([2; 3; 1], [20; 30; 10]).
Proof. vm_compute. repeat split; reflexivity. Qed.
