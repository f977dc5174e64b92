(** C189: the final estimator is asked about the features it was trained on. *)
From Coq Require Import String List ZArith QArith Bool Arith Lia.
From Verif Require Import Np NpFacts Labels Spec SpecFacts UtilsModel UtilsSpec SelectModel SelectSpec SelectProofs
  SelectProofs2 Sel2Model PredictModel ThmSelect ThmPredict ThmTrain.
Import ListNotations.
Local Open Scope string_scope.
Local Open Scope nat_scope.
Local Open Scope list_scope.

(** ** Specification *)

(** A training step that returns the rows its fitted function gives: [learn k] is the function of the domain label and
    of the row that the step has learnt from the call [k]. *)
Definition learns {R} (sd : list Z) (s : shared_step R) (learn : @call R -> Z -> R -> R) : Prop :=
  forall k o, length (k_X k) = length sd -> s_run s k = Ok o -> out_X o = each (learn k) sd (k_X k).

(** The fitted step applies [f] to the samples of the domains [sd], whose parameters are [ps]. *)
Definition applies {R} (ps : params) (sd : list Z) (s : fitted_step R R) (f : Z -> R -> R) : Prop :=
  exists route meth rp, s = FShared route meth /\ route ps = Ok rp /\
    forall X, length X = length sd -> meth X rp = Ok (each f sd X).

(** ** Proofs *)

Lemma through_each {R A} (zr : R) (za : A) ps sd (steps : list (fitted_step R R)) fs (fin : fitted_step R A) :
  Forall2 (applies ps sd) steps fs -> forall X, length X = length sd ->
  pipe_predict zr za steps fin X ps = step_call za fin (each (through fs) sd X) ps.
Proof.
  intros H. induction H as [|s f steps fs (route & meth & rp & -> & Hr & Hm) _ IH]; intros X HX.
  - cbn [pipe_predict through]. f_equal. unfold each. revert X HX. induction sd as [|d sd IH]; intros [|x X] HX; cbn in *; try discriminate; auto. now rewrite <- IH by lia.
  - cbn [pipe_predict step_call]. unfold shared_route. rewrite Hr. cbn [bind sel_remove_masked k_X k_params]. rewrite Hm by auto. cbn [bind].
    rewrite IH by (now apply each_length). f_equal. exact (each_each f (through fs) sd X).
Qed.

Lemma last_shift {A} (l : list A) a d : last (a :: l) d = last l a.
Proof. revert a d. induction l as [|b l IH]; intros a d; auto. change (last (b :: l) d = last (b :: l) a). now rewrite (IH b d), (IH b a). Qed.

Lemma learned_rows {R} sd (pre : list (shared_step R)) learns_ : Forall2 (learns sd) pre learns_ ->
  forall X y calls outs, length X = length sd -> run_on X y pre calls outs ->
  last (map out_X outs) X = each (through (map (fun p => fst p (snd p)) (combine learns_ calls))) sd X.
Proof.
  intros H. induction H as [|s l pre ls Hl _ IH]; intros X y calls outs HX (HF & HL & HK & HY).
  - cbn in HF. inversion HF. subst. cbn. unfold each. clear - HX. revert X HX. induction sd as [|d sd IH]; intros [|x X] HX; cbn in *; try discriminate; auto. now rewrite <- IH by lia.
  - destruct calls as [|k calls]; [discriminate|]. cbn [combine] in HF. inversion HF as [|? o ? outs' Ho HF' E1 E2]. subst outs. cbn [fst snd] in Ho.
    cbn [map] in HK. assert (EK : k_X k = X). { destruct outs'; cbn in HK; injection HK as HK _; auto. }
    assert (EO : out_X o = each (l k) sd X) by (rewrite <- EK; apply Hl; auto; now rewrite EK).
    cbn [map combine fst snd]. rewrite <- (each_each (l k) (through (map (fun p => fst p (snd p)) (combine ls calls))) sd X : _ = each (through (l k :: _)) sd X).
    rewrite <- EO. rewrite <- (IH (out_X o) y calls outs').
    + apply last_shift.
    + rewrite EO. now apply each_length.
    + split; [auto|]. split; [cbn in HL; lia|]. split; [|now inversion HY].
      cbn [map removelast] in HK. injection HK as _ HK. exact HK.
Qed.

(** ** C189 *)

(** Training on [X] and then predicting the sources among [X] with the fitted steps: the final estimator receives the rows it was trained on. *)
Theorem C189_same_features : forall (R A : Type) (pre : list (shared_step R)) (fin : shared_step R) first (X : list R) y ps sd m ks learn,
  get_sd ps = Some sd -> sd <> [] -> length X = length sd -> length y = length sd -> usable_labels sd y m -> no_pylist (length sd) ps ->
  Forall (adapter (length sd)) pre -> plain fin -> hd_error (pre ++ [fin]) = Some first -> s_mask first = true ->
  Forall2 (learns sd) pre learn ->
  shared_chain (pre ++ [fin]) (from_array X) (Some y) ps = Ok ks ->
  exists calls trained_on, ks = calls ++ [trained_on] /\ length calls = length pre /\
  forall (zr : R) (za : A) qs steps (final : fitted_step R A),
    Forall2 (applies qs (filter is_source sd)) steps (map (fun p => fst p (snd p)) (combine learn calls)) ->
    pipe_predict zr za steps final (rows_of is_source sd X) qs = step_call za final (k_X trained_on) qs.
Proof.
  intros R A pre fin first X y ps sd m ks learn Hsd Hne HX HL Hu Hps Hpre Hfin Hhd Hfm Hlearn Hc.
  destruct (C182_trained_on_adapted_sources R pre fin first X y ps sd m ks Hsd Hne HX HL Hu Hps Hpre Hfin Hhd Hfm Hc) as (calls & outs & ps' & rp & Hrun & _ & _ & ->).
  eexists calls, _. split; [reflexivity|]. split; [apply Hrun|]. intros zr za qs steps final Hst. cbn [k_X].
  rewrite (learned_rows sd pre learn Hlearn X _ calls outs HX Hrun).
  assert (EF : filter is_source sd = rows_of is_source sd sd). { rewrite rows_of_select. clear. induction sd as [|d sd IH]; cbn; auto. destruct (is_source d); cbn; now rewrite IH. }
  rewrite (through_each zr za qs (filter is_source sd) steps _ final Hst).
  - f_equal. rewrite EF. now apply each_rows.
  - rewrite EF. rewrite !rows_of_length; auto.
Qed.

(** Two steps: the first adds the sum of all the rows it was fitted on, the second multiplies the targets by 3. *)
Example C189_ex :
  let sd := [1; -2; 1]%Z in
  let adds := mkStep (fun p => Ok p) true true (fun k => Ok (OArr (map (fun x => x + fold_right Nat.add 0 (k_X k)) (k_X k)))) in
  let triples := mkStep (fun p => Ok p) true true (fun k => Ok (OArr (each (fun d x => if is_source d then x else 3 * x) sd (k_X k)))) in
  let fin := mkStep (fun _ => Ok []) false false (fun k => Ok (OArr (k_X k))) in
  let learn := [fun k (_ : Z) x => x + fold_right Nat.add 0 (@k_X nat k); fun _ d x => if is_source d then x else 3 * x] in
  let ps := [("sample_domain", PDom sd)] in let y := [VNum 0; VNum (inject_Z 5); VNum 1] in
  Forall2 (learns sd) [adds; triples] learn /\
  (exists calls k, shared_chain ([adds; triples] ++ [fin]) (from_array [1; 2; 4]) (Some y) ps = Ok (calls ++ [k]) /\ k_X k = [8; 11] /\ length calls = 2 /\
   let qs := [("sample_domain", PDom [1; 1]%Z); ("allow_source", POther 1)] in
   let steps := [FShared (fun _ => Ok []) (fun X _ => Ok (map (fun x => x + 7) X)); FShared (fun p => Ok p) (fun X _ => Ok X)] in
   Forall2 (applies qs (filter is_source sd)) steps (map (fun p => fst p (snd p)) (combine learn calls))).
Proof.
  cbn zeta.
  assert (EM : forall (f : nat -> nat) sd X, length X = length sd -> map f X = each (fun (_ : Z) x => f x) sd X).
  { intros f sd X HX. unfold each. revert X HX. induction sd as [|d sd IH]; intros [|x X] H; cbn in *; try discriminate; auto. now rewrite <- IH by lia. }
  split.
  { constructor; [|constructor; [|constructor]]; intros k o Hk H; cbn in H; injection H as <-; auto. cbn [out_X]. now apply EM. }
  eexists [_; _], _. split; [cbn; reflexivity|]. cbn [k_X length]. split; [reflexivity|]. split; [reflexivity|].
  constructor; [|constructor; [|constructor]].
  - do 3 eexists. split; [reflexivity|]. split; [reflexivity|]. intros X HX. f_equal. cbn [fst snd k_X fold_right]. rewrite (EM (fun x => x + 7) (filter is_source [1; -2; 1]%Z) X HX). reflexivity.
  - do 3 eexists. split; [reflexivity|]. split; [reflexivity|]. intros X HX. f_equal. cbn in HX. destruct X as [|a [|b [|c X]]]; try discriminate. reflexivity.
Qed.
