(** Specification vocabulary for the scorers, in terms of real vectors and domain labels only. *)
From Coq Require Import List ZArith QArith Bool Arith Reals.
From Verif Require Import Np Labels Spec RVec MetricsModel.
Import ListNotations.
Local Open Scope nat_scope.

(** Probability vectors and row-stochastic matrices. *)
Definition distribution (r : list R) : Prop := Forall (fun t => 0 <= t)%R r /\ vsum r = 1%R.
Definition row_stochastic (M : list (list R)) : Prop := Forall distribution M.

(** Shannon entropy, with 0 ln 0 = 0. *)
Definition entropy (r : list R) : R := vsum (map (fun p => if Req_EM_T p 0 then 0 else - p * ln p)%R r).

(** Log-probabilities that are the logarithms of the probabilities. *)
Definition log_of (p : R) (l : logp) : Prop := (p = 0%R /\ l = NegInf) \/ ((0 < p)%R /\ l = Fin (ln p)).

(** Sample variance and covariance (divisor n - 1), and the control-variate estimate of DEV. *)
Definition sample_cov (u v : list R) : R :=
  (vsum (map2 (fun a b => (a - mean u) * (b - mean v)) u v) / (INR (length u) - 1))%R.
Definition control_variate (w l : list R) : R :=
  let wl := map2 Rmult w l in
  let eta := if Req_EM_T (sample_cov w w) 0 then 0%R else (- sample_cov wl w / sample_cov w w)%R in
  (mean wl + eta * mean w - eta)%R.

(** Cosine similarity of two probability vectors. *)
Definition cosine (u v : list R) : R := (dot u v / (sqrt (dot u u) * sqrt (dot v v)))%R.

(** Mixing two samples. *)
Definition mixed (alpha : R) (x x' : list R) : list R := map2 (fun a b => alpha * a + (1 - alpha) * b)%R x x'.

(** The part of a mixed score computed on the positions selected by [sel]: no score if there are none. *)
Definition part_score (scorer : list (list R) -> list Z -> list Z -> res R) (n : nat) (sel : nat -> bool)
           (input : nat -> list R) (label : nat -> Z) (s : option R) : Prop :=
  let idx := filter sel (seq 0 n) in
  (idx = [] /\ s = None) \/
  (idx <> [] /\ exists r, s = Some r /\ scorer (map input idx) (map label idx) (map (fun _ => (-1)%Z) idx) = Ok r).

(** Mean of the available values. *)
Definition available_mean (l : list (option R)) (m : option R) : Prop :=
  let vs := flat_map (fun o => match o with Some r => [r] | None => [] end) l in
  (vs = [] /\ m = None) \/ (vs <> [] /\ m = Some (mean vs)).
