(** Specification vocabulary for C169 (from SeedModel only the types random_state and world are used). *)
From Coq Require Import List ZArith QArith Bool Arith.
From Verif Require Import Np Labels Spec SplitSpec SeedModel.
Import ListNotations.
Local Open Scope nat_scope.

(** The code of the caller run between the splits, [k] times, and nothing else. *)
Definition caller_only {W} (body : nat -> W -> W) (k : nat) (w : W) : W := fold_left (fun w i => body i w) (seq 0 k) w.
(** A caller that only collects the splits. *)
Definition idle {W} (i : nat) (w : W) : W := w.

(** With an integer the result does not depend on the state of any generator, and changes none. *)
Definition seed_decides {W A} (f : random_state -> W -> A * W) : Prop :=
  forall z w w', fst (f (RSInt z) w) = fst (f (RSInt z) w') /\ snd (f (RSInt z) w) = w.

(** A call with an instance, or without random_state and after seeding numpy's generator, gives what a call with the seed gives. *)
Definition seed_transparent {G T A} (seeded : Z -> G) (f : random_state -> world G T -> A * world G T) : Prop :=
  forall z w w', (0 <= z < 2 ^ 32)%Z ->
    (w_global _ _ w = seeded z -> fst (f RSNone w) = fst (f (RSInt z) w')) /\
    (forall i, w_instance _ _ w i = seeded z -> fst (f (RSInstance i) w) = fst (f (RSInt z) w')).

(** The contracts of rng.permutation and of the allocation of n samples to groups of the given sizes. *)
Definition lawful_permutation {G} (permutation : nat -> G -> list nat * G) : Prop := forall n g, is_perm n (fst (permutation n g)).
Definition lawful_mode {G} (mode : list nat -> nat -> G -> list nat * G) : Prop := forall counts n g, n <= total counts ->
  Forall2 (fun a c => a <= c) (fst (mode counts n g)) counts /\ total (fst (mode counts n g)) = n.

