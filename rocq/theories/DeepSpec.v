(** Specification vocabulary for the deep data handling (C60-C64, C98-C103). *)
From Coq Require Import List ZArith QArith Bool Arith Lia Reals Lra Permutation.
From Verif Require Import Np Labels RVec Spec DeepModel.
Import ListNotations.
Local Open Scope nat_scope.

(** The entries of [xs] whose flag is set, in order. *)
Definition kept {A} (m : list bool) (xs : list A) : list A := map snd (filter (fun p => fst p) (combine m xs)).

(** Number of earlier samples of the same domain. *)
Definition rank (sd : list Z) (i : nat) : nat := how_many (Z.eqb (nth i sd 0%Z)) (firstn i sd).

(** A dataset whose tensors belong together: same number of rows everywhere (or no weights at all), accepted rows, label flags set
    exactly where a label is known, samples of every domain numbered 0, 1, 2, ... *)
Record consistent {Row} (row_ok : Row -> bool) (d : ds Row) : Prop := mkConsistent {
  c_y : length (t_y _ d) = length (t_X _ d);
  c_sd : length (t_sd _ d) = length (t_X _ d);
  c_w : t_w _ d = [] \/ length (t_w _ d) = length (t_X _ d);
  c_has : t_has_y _ d = map (fun v => negb (val_eqb_q v (inject_Z (-1)))) (t_y _ d);
  c_idx : t_idx _ d = map (rank (t_sd _ d)) (seq 0 (length (t_X _ d)));
  c_rows : forall x, In x (t_X _ d) -> row_ok x = true }.

(** [r] consists of the samples of [d] whose flag is set; weights only when asked for. *)
Definition selection {Row} (m : list bool) (d r : ds Row) (weights : bool) : Prop :=
  t_X _ r = kept m (t_X _ d) /\ t_y _ r = kept m (t_y _ d) /\ t_sd _ r = kept m (t_sd _ d) /\
  t_w _ r = if weights then kept m (t_w _ d) else [].

(** The samples with their label and domain. *)
Definition samples {Row} (d : ds Row) : list (Row * val * Z) := combine (combine (t_X _ d) (t_y _ d)) (t_sd _ d).

(** The item number [i] of a dataset. *)
Definition item_at {Row} (d : ds Row) (i : nat) (it : item Row) : Prop :=
  nth_error (t_X _ d) i = Some (i_X _ it) /\ nth_error (t_y _ d) i = Some (i_y _ it) /\ nth_error (t_sd _ d) i = Some (i_sd _ it) /\
  i_idx _ it = rank (t_sd _ d) i /\ i_w _ it = nth_error (t_w _ d) i.

(** [p0; q0; p1; q1; ...]. *)
Definition interleave {A} (ps qs : list A) : list A := concat (map (fun pq => [fst pq; snd pq]) (combine ps qs)).

(** How often [i] occurs. *)
Definition uses (i : nat) (l : list nat) : nat := length (filter (Nat.eqb i) l).
