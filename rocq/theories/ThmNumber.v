(** Theorems C236: splitters, samplers and data loaders deliver as many items as they announce. *)
From Coq Require Import String List ZArith QArith Bool Arith Lia Reals Permutation.
From Verif Require Import Np NpFacts Spec SpecFacts SplitModel SplitSpec UtilsModel UtilsSpec DeepModel NumberModel.
From Verif Require SeedModel SeedSpec ThmSplit ThmSeed2 ThmDeep.
Import ListNotations.
Local Open Scope nat_scope.
Local Open Scope list_scope.

(** Splitters: whatever the random state, the work done between two splits, the data and the domain labels. *)
Lemma run_length {G T S} (one : G -> res S * G) (body : nat -> SeedModel.world G T -> SeedModel.world G T) : forall k r i w l,
  fst (SeedModel.run G T one r body i k w) = Ok l -> length l = k.
Proof.
  induction k as [|k IH]; intros r i w l H; cbn [SeedModel.run] in H; [cbn in H; now injection H as <-|].
  destruct (SeedModel.draw G T one r w) as [[x r'] w']. destruct x as [s|]; [|discriminate H].
  specialize (IH r' (Datatypes.S i) (body i w')). destruct (SeedModel.run G T one r' body (Datatypes.S i) k (body i w')) as [y w'']. cbn [fst] in *.
  destruct y as [l'|]; [|discriminate H]. cbn in H. injection H as <-. cbn [length]. now rewrite (IH l' eq_refl).
Qed.
Theorem C236_splits : forall G T seeded permutation mode c rs n sd n_splits body w splits,
  fst (SeedModel.split G T seeded permutation mode c rs n sd n_splits body w) = Ok splits ->
  forall A B C (X : A) (y : B) (sample_domain : C), get_n_splits n_splits X y sample_domain = length splits.
Proof.
  intros G T sed p m c rs n sd k body w l H A B C X y s. unfold SeedModel.split in H.
  destruct (SeedModel.prepare _ _ _ _ _ _); [|discriminate H]. destruct (SeedModel.check_random_state _ _ _); [|discriminate H].
  unfold get_n_splits. symmetry. exact (run_length _ _ _ _ _ _ _ H).
Qed.
Theorem C236_leave_one_out : forall G T seeded permutation, SeedSpec.lawful_permutation permutation -> forall rs n sd max_n_splits test_size train_size body w splits,
  fst (SeedModel.lodo_all G T seeded permutation rs n sd max_n_splits test_size train_size body w) = Ok splits ->
  lodo_get_n_splits (eff_domain n sd) max_n_splits = length splits.
Proof.
  intros G T sed p LP rs n sd m ts tr body w l H.
  assert (HD : labels_where is_source (eff_domain n sd) (lodo_domains (eff_domain n sd))) by apply SplitProofs2.labels_where_unique.
  destruct (ThmSeed2.C169_leave_one_out_valid G T sed p LP rs n sd m ts tr body w l H _ HD) as (ds & _ & _ & L & F).
  assert (E : length ds = length l) by (clear -F; induction F; cbn; congruence). rewrite <- E, L. reflexivity.
Qed.

(** Samplers: any dataset and any draws. *)
Lemma balanced_loop_length pp pn pos neg : forall n sp sn e, balanced_loop pp pn n pos neg sp sn = Ok e -> length e = 2 * n.
Proof.
  induction n as [|n IH]; intros sp sn e H; cbn [balanced_loop] in H; [now injection H as <-|].
  apply bind_ok in H as [p [_ H]]. apply bind_ok in H as [q [_ H]]. apply bind_ok in H as [r [H1 H]]. injection H as <-. cbn [length]. rewrite (IH _ _ _ H1). lia.
Qed.
Theorem C236_balanced_sampler : forall Row (d : ds Row) batch_size mode pp pn e, balanced_epoch Row d batch_size mode pp pn = Ok e ->
  balanced_len d batch_size mode = Ok (length e).
Proof.
  intros Row d bs mode pp pn e H. unfold balanced_epoch in H. apply bind_ok in H as [n [N H]]. unfold balanced_len. rewrite N. cbn [bind].
  destruct (_ || _); [discriminate H|]. now rewrite (balanced_loop_length _ _ _ _ _ _ _ _ H).
Qed.
Theorem C236_one_side_sampler : forall Row (d : ds Row) batch_size src perm e,
  let side := if src : bool then is_source else is_target in
  Permutation (seq 0 (how_many side (map (i_sd Row) (items Row d)))) perm -> only_epoch Row d batch_size (Some src) perm = Ok e ->
  only_len d batch_size (Some src) = Ok (length e).
Proof.
  intros Row d bs src perm e side P H. unfold only_epoch in H. unfold only_len. destruct (bs =? 0) eqn:B; [discriminate H|].
  destruct (length _ =? 0); [discriminate H|]. apply mapM_ok_length in H. rewrite H, firstn_length.
  assert (L : length perm = length (side_indices Row (fun s => if src then (0 <=? s)%Z else (s <? 0)%Z) d)).
  { rewrite <- (Permutation_length P), seq_length. unfold side_indices. rewrite <- (map_map (i_sd Row) (fun s => if src then (0 <=? s)%Z else (s <? 0)%Z)). 
    rewrite flatnonzero_length, count_map. destruct src; reflexivity. }
  rewrite L. f_equal. unfold whole. lia.
Qed.

(** Data loaders. *)
Lemma chunks_count {A} k : 0 < k -> forall f (l : list A), length l <= f -> length (chunks_fuel f k l) = loader_len (length l) k.
Proof.
  intros Hk. unfold loader_len. induction f as [|f IH]; intros l L.
  - destruct l; [|cbn in L; lia]. cbn [chunks_fuel length]. symmetry. apply Nat.div_small. lia.
  - destruct l as [|x l]; cbn [chunks_fuel length]. { symmetry. apply Nat.div_small. cbn. lia. }
    rewrite IH by (rewrite skipn_length; cbn [length] in *; lia). rewrite skipn_length. cbn [length].
    destruct (le_lt_dec k (S (length l))) as [G|G].
    + replace (S (length l) + k - 1) with ((S (length l) - k + k - 1) + 1 * k) by lia. rewrite Nat.div_add by lia. lia.
    + replace (S (length l) - k) with 0 by lia. cbn [Nat.add]. assert (E1 : (k - 1) / k = 0) by (apply Nat.div_small; lia). assert (E2 : (S (length l) + k - 1) / k = 1).
      { replace (S (length l) + k - 1) with (length l + 1 * k) by lia. rewrite Nat.div_add by lia. rewrite Nat.div_small by lia. reflexivity. }
      cbn [Nat.add] in *. rewrite E1. symmetry. exact E2.
Qed.
Theorem C236_balanced_loader : forall Row (d : ds Row) batch_size mode pp pn batches, balanced_batches Row d batch_size mode pp pn = Ok batches ->
  balanced_loader_len d batch_size mode = Ok (length batches).
Proof.
  intros Row d bs mode pp pn b H. unfold balanced_batches in H. apply bind_ok in H as [e [E H]]. injection H as <-.
  unfold balanced_loader_len. rewrite (C236_balanced_sampler _ _ _ _ _ _ _ E). cbn [bind]. unfold chunks. rewrite chunks_count; auto.
  destruct bs; [|lia]. unfold balanced_epoch, num_samples in E. destruct mode; discriminate E.
Qed.
Theorem C236_one_side_loader : forall Row (d : ds Row) batch_size src perm batches,
  let side := if src : bool then is_source else is_target in
  Permutation (seq 0 (how_many side (map (i_sd Row) (items Row d)))) perm -> only_batches Row d batch_size (Some src) perm = Ok batches ->
  only_loader_len d batch_size (Some src) = Ok (length batches).
Proof.
  intros Row d bs src perm b side P H. unfold only_batches in H. apply bind_ok in H as [e [E H]]. injection H as <-.
  unfold only_loader_len. rewrite (C236_one_side_sampler _ _ _ _ _ _ P E). cbn [bind]. unfold chunks. rewrite chunks_count; auto.
  destruct bs; [discriminate E|lia].
Qed.

(** Three sources and two targets. *)
Example C236_ex :
  balanced_epoch nat ThmDeep.ex_d 2 SMax (fun _ => [2; 0; 1]) (fun _ => [1; 0]) = Ok [3; 4; 0; 2] /\ balanced_len ThmDeep.ex_d 2 SMax = Ok 4 /\
  balanced_loader_len ThmDeep.ex_d 1 SMax = Ok 3 /\ balanced_loader_len ThmDeep.ex_d 4 SMax = Ok 0 /\
  only_batches nat ThmDeep.ex_d 1 (Some false) [1; 0] = Ok [[4]; [2]] /\ only_loader_len ThmDeep.ex_d 1 (Some false) = Ok 2 /\
  Permutation (seq 0 (how_many is_target (map (i_sd nat) (items nat ThmDeep.ex_d)))) [1; 0].
Proof. repeat split. apply perm_swap. Qed.
Example C236_ex_splits : exists s, fst (SeedModel.split unit unit (fun _ => tt) (fun n g => (seq 0 n, g)) (fun l _ g => (l, g)) (SeedModel.SourceTarget (SzInt 1) SzNone)
    SeedModel.RSNone 4 (SDArr [1; 1; -2; -2]%Z) 3 (fun _ w => w) (SeedModel.mkWorld _ _ tt (fun _ => tt) tt)) = Ok s /\ length s = 3.
Proof. eexists. split; reflexivity. Qed.
Example C236_ex_leave : exists s, fst (SeedModel.lodo_all unit unit (fun _ => tt) (fun n g => (seq 0 n, g))
    SeedModel.RSNone 8 (SDArr [1; 1; 2; 2; -1; -1; -2; -2]%Z) 10 (SzInt 1) SzNone (fun _ w => w) (SeedModel.mkWorld _ _ tt (fun _ => tt) tt)) = Ok s /\ length s = 2.
Proof. eexists. split; reflexivity. Qed.
