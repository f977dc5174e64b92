(** C233: no method invents a class: self-labelling and gradual adaptation. *)
From Coq Require Import String List ZArith QArith Bool Arith Lia Reals Lra.
From Verif Require Import Np NpFacts Labels UtilsModel SelectModel Spec SpecFacts RVec SelfModel SelfSpec SelfProofs SelfProofs2 SelfProofs3.
Import ListNotations.
Local Open Scope nat_scope.
Local Open Scope list_scope.

(** A classifier predicts one of the labels it was fitted on. *)
Definition learnt {Row L Est} (fitE : list Row -> list L -> res Est) (predictE : Est -> Row -> L) : Prop :=
  forall X y e x, fitE X y = Ok e -> In (predictE e x) y.

Lemma select_In {A} m : forall (l r : list A) x, np_select m l = Ok r -> In x r -> In x l.
Proof.
  intros l r x. unfold np_select. destruct (length m =? length l) eqn:E; [|discriminate]. intros [= <-]. revert l E.
  induction m as [|b m IH]; intros [|a l] E H; try discriminate; [destruct H|]. cbn in H. apply Nat.eqb_eq in E. injection E as E. apply Nat.eqb_eq in E.
  destruct b; [destruct H as [->|H]; [now left|]|]; right; eapply IH; eauto.
Qed.

(** Every class DASVM predicts is the label of a source sample. *)
Theorem C233_dasvm : forall Row Est (fitE : list Row -> list val -> res Est) predictE decisionE leqb k max_iter Xs Xt ys f X,
  learnt fitE predictE -> dasvm_core Row Est fitE predictE decisionE leqb k max_iter Xs Xt ys = Ok f ->
  Forall (fun c => In c ys) (dasvm_predict Row Est predictE f X).
Proof.
  intros Row Est fitE predictE decisionE leqb k max_iter Xs Xt ys f X HL E. unfold dasvm_core in E. apply bind_ok in E as [b [_ E]]. apply bind_ok in E as [s0 [E0 E]].
  apply bind_ok in E as [s [Es E]]. apply bind_ok in E as [fin [Ef E]]. injection E as <-.
  assert (P0 : forall x, In (predictE (d_est _ s0) x) ys).
  { intros x. unfold dasvm_first in E0. apply bind_ok in E0 as [e0 [F0 E0]]. apply bind_ok in E0 as [dl [_ E0]]. apply bind_ok in E0 as [mg [_ E0]]. apply bind_ok in E0 as [ad [_ E0]].
    injection E0 as <-. cbn. eapply HL; eauto. }
  assert (P : forall x, In (predictE (d_est _ s) x) ys).
  { clear Ef E0. revert s0 P0 Es. induction (max_iter - 1) as [|n IH]; intros s0 P0 Es; cbn [dasvm_loop] in Es; [injection Es as <-; exact P0|].
    destruct (count (d_margin Est s0) =? 0); [injection Es as <-; exact P0|]. apply bind_ok in Es as [s1 [E1 Es]]. apply (IH s1); [|exact Es].
    unfold dasvm_iter in E1. apply bind_ok in E1 as [xy [Exy E1]]. apply bind_ok in E1 as [new [Fn E1]].
    apply bind_ok in E1 as [d1 [_ E1]]. apply bind_ok in E1 as [d2 [_ E1]]. apply bind_ok in E1 as [d3 [_ E1]]. apply bind_ok in E1 as [d4 [_ E1]]. apply bind_ok in E1 as [d5 [_ E1]].
    injection E1 as <-. cbn [d_est]. intros x. pose proof (HL _ _ _ x Fn) as H.
    unfold get_X_y in Exy. apply bind_ok in Exy as [xs [_ Exy]]. apply bind_ok in Exy as [xt [_ Exy]]. apply bind_ok in Exy as [ls [Els Exy]]. injection Exy as <-. cbn [snd] in H.
    apply in_app_iff in H as [H|H]; [eapply select_In; eauto|]. apply in_map_iff in H as (z & <- & _). apply P0. }
  unfold dasvm_predict. cbn [f_final]. apply Forall_forall. intros c Hc. apply in_map_iff in Hc as (x & <- & _). pose proof (HL _ _ _ x Ef) as H.
  apply in_map_iff in H as (z & <- & _). apply P.
Qed.

(** Every class a gradual estimator predicts is the label of a source sample, and so are the labels of the intermediate data. *)
Theorem C233_gradual : forall Est coupling (fitE : nat -> list (list R) -> list val -> res Est) predictE alpha n_steps advanced width st X y sd st' data,
  (forall mi, learnt (fitE mi) predictE) -> length y = length sd ->
  gradual_fit Est coupling fitE predictE alpha n_steps advanced width st X y sd = Ok (st', data) ->
  exists e, g_fitted _ st' = Some e /\ (forall x, In (predictE e x) (rows_of is_source sd y)) /\
    forall Xd yd, In (Xd, yd) data -> Forall (fun c => In c (rows_of is_source sd y)) yd.
Proof.
  intros Est coupling fitE predictE alpha n_steps advanced width st X y sd st' data HL Ly E. unfold gradual_fit in E.
  apply bind_ok in E as [Xs [_ E]]. apply bind_ok in E as [ys [Ey E]]. apply bind_ok in E as [Xt [_ E]]. apply bind_ok in E as [yt [_ E]].
  apply bind_ok in E as [gamma [_ E]]. apply bind_ok in E as [cm [_ E]]. apply bind_ok in E as [e0 [F0 E]]. apply bind_ok in E as [[[mi' est] d'] [El E]]. injection E as <- <-.
  assert (Q : rows_of is_source sd y = ys).
  { rewrite rows_of_select. unfold np_select in Ey. destruct (length (map (fun d => (0 <=? d)%Z) sd) =? length y); [|discriminate]. injection Ey as <-. reflexivity. }
  rewrite Q. exists est. split; [reflexivity|].
  assert (P0 : forall x, In (predictE e0 x) ys) by (intros x; eapply HL; eauto). clear F0 Q.
  revert El P0. generalize (seq 1 n_steps) (match g_max_iter Est st with Some k => k | None => 100 end). intros steps. revert e0 d'.
  induction steps as [|t rest IH]; intros e0 d' mi El P0; cbn [gradual_loop] in El; [injection El as _ <- <-; split; [exact P0|intros ? ? []]|].
  apply bind_ok in El as [Xd [_ El]]. apply bind_ok in El as [e1 [F1 El]]. apply bind_ok in El as [[[m2 e2] d2] [E2 El]]. cbn [fst snd] in El. injection El as -> -> <-.
  assert (P1 : forall x, In (predictE e1 x) ys) by (intros x; pose proof (HL _ _ _ _ x F1) as H; apply in_map_iff in H as (z & <- & _); apply P0).
  destruct (IH e1 d2 _ E2 P1) as [A B]. split; [exact A|]. intros X1 y1 [[= <- <-]|H]; [|eapply B; eauto].
  apply Forall_forall. intros c Hc. apply in_map_iff in Hc as (z & <- & _). apply P0.
Qed.

(** A classifier that predicts the first label it was fitted on. *)
Definition first_label (X : list nat) (y : list val) : res val := match y with [] => Err ValueError | c :: _ => Ok c end.
Example C233_ex : learnt first_label (fun (e : val) (_ : nat) => e) /\
  exists f, dasvm_core nat val first_label (fun e _ => e) (fun _ x => INR x - 1)%R (fun _ _ => true) 1 1 [0; 2] [1; 2] [VNum 3; VNum 8] = Ok f /\
    dasvm_predict nat val (fun e _ => e) f [5] = [VNum 3].
Proof.
  split.
  - intros X [|c y] e x H; [discriminate|]. injection H as <-. now left.
  - destruct (first_spec first_label (fun (e : val) (_ : nat) => e) (fun _ x => INR x - 1)%R 1 [0; 2] [1; 2] [VNum 3; VNum 8] (VNum 3) 0 ltac:(lia) eq_refl) as (s & A & B & _).
    exists (mkFitted val (VNum 3) (d_est _ s)). unfold dasvm_core. change (first_label [0; 2] [VNum 3; VNum 8]) with (Ok (VNum 3)). cbn [bind]. rewrite A. cbn. rewrite B. split; reflexivity.
Qed.
