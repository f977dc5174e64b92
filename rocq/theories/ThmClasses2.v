(** C233: no method invents a class: transport of labels, JDOT and JCPOT. *)
From Coq Require Import List ZArith Bool Arith Lia Reals Lra Psatz.
From Verif Require ThmClasses.
From Verif Require Import Np NpFacts Labels Spec SpecFacts UtilsModel SelectModel RVec RVecFacts OTModel OTSpec OTProofs OTProofs2 OTProofs3 ThmOT
  MapModel RMat ThmJdot ThmSame ThmMass ThmAgree ThmSingle.
Import ListNotations.
Local Open Scope nat_scope.
Local Open Scope list_scope.

(** A classifier fitted with sample weights predicts one of the labels it was fitted on. *)
Definition learnt_w {X L Est} (fit : list X -> list L -> list R -> res Est) (predict : Est -> X -> L) : Prop :=
  forall xs ys ws e x, fit xs ys ws = Ok e -> In (predict e x) ys.

Lemma data_labels {X L} (Xt : list X) Yth (labels : list L) thr xh yh wh l : jdot_data Xt Yth labels thr = Ok (xh, yh, wh) -> In l yh -> In l labels.
Proof.
  unfold jdot_data. intros E I. apply bind_ok in E as [mx [_ E]]. apply bind_ok in E as [a [_ E]]. apply bind_ok in E as [b [Eb E]]. apply bind_ok in E as [c [_ E]].
  injection E as _ <- _. pose proof (ThmClasses.select_In _ _ _ _ Eb I) as J. apply in_concat in J as (l' & J1 & J2). apply repeat_spec in J1. now subst l'.
Qed.

(** JDOT: the classes predicted are source classes, for every solver, metric, threshold and number of iterations. *)
Theorem C233_jdot : forall {Est Xrow} solve (fit : list Xrow -> list Z -> list R -> res Est) predict pred metric alpha thr tol n D ys Xt ws wt est lot llab T w x,
  learnt_w fit predict ->
  solve_jdot_classification solve fit pred metric alpha thr tol n D ys Xt ws wt = Ok (est, lot, llab, T, w) -> In (predict est x) ys.
Proof.
  intros Est Xrow solve fit predict pred metric alpha thr tol n D ys Xt ws wt est lot llab T w x HL E.
  unfold solve_jdot_classification in E.
  apply bind_ok in E as [[[[s l1] l2] w1] [E1 E]]. cbn beta iota in E. destruct (snd s) as [[e' T']|] eqn:Es; [|discriminate]. injection E as <- _ _ _ _.
  set (good := fun e => In (predict e x) ys).
  assert (P : match snd s with Some (e, _) => good e | None => True end); [|rewrite Es in P; exact P].
  eapply (loop_holds _ tol n (fun s : list (list R) * option (Est * list (list R)) => match snd s with Some (e, _) => good e | None => True end)); [|cycle 1|exact E1]; [|exact I].
  intros i s0 s1 lo ll H. unfold cls_step in H. apply bind_ok in H as [[T0 v] [E0 H]]. cbn beta iota in H.
  apply bind_ok in H as [[[xh yh] wh] [Ed H]]. cbn beta iota in H. apply bind_ok in H as [e [Ef H]].
  apply bind_ok in H as [Ml [_ H]]. apply bind_ok in H as [q [_ H]]. injection H as <- _ _. cbn. pose proof (HL _ _ _ _ x Ef) as Ex. clear Ef.
  apply (data_labels _ _ _ _ _ _ _ _ Ed) in Ex. apply (proj1 (unique_In _ _)) in Ex. exact Ex.
Qed.

(** Label propagation: every target label is a source class. *)
Theorem C233_label_propagation : forall {Xrow} (plan : list Xrow -> list Xrow -> list R -> list R -> res (list (list R))) X y sw sd G,
  sd <> [] -> length X = length sd -> length y = length sd -> (forall w, sw = Some w -> length w = length sd) -> 0 < how_many is_source sd ->
  plan (rows_of is_source sd X) (rows_of is_target sd X) (proportions (how_many is_source sd) (opt_rows is_source sd sw))
       (proportions (how_many is_target sd) (opt_rows is_target sd sw)) = Ok G -> length G = how_many is_source sd ->
  exists out, otlp_discrete plan X y sw sd = Ok out /\ length out = length sd /\
    Forall (fun c => In c (rows_of is_source sd y)) (rows_of is_target sd out).
Proof.
  intros Xrow plan X y sw sd G Hsd HX Hy Hw Hs HP LG.
  destruct (C52_discrete_labels plan X y sw sd G Hsd HX Hy Hw Hs HP LG) as (l & out & E & (L0 & _ & LT) & Ll & H).
  exists out. split; [exact E|]. split; [auto|]. rewrite LT. apply Forall_forall. intros c Ic. apply (In_nth _ _ 0%Z) in Ic as (j & Hj & <-).
  now destruct (H j ltac:(lia)) as [A _].
Qed.

(** REFUTED for JCPOT: with source classes 5 and 7 the targets get the labels 0 and 1. *)
Theorem C233_jcpot_refuted :
  let labels Xs ys Xt := Ok (map (score_by_size Xs ys Xt) Xt) in
  let X := [10; 40; 20; 30] in let y := [5; 7; -1; -1]%Z in let sd := [1; 1; -2; -2]%Z in
  exists out, jcpot_fit_transform labels X y sd = Ok out /\ Forall (fun c => ~ In c (rows_of is_source sd y)) (rows_of is_target sd out).
Proof.
  cbv zeta. eexists. split; [exact (proj1 C53_label_values_refuted)|]. cbn. repeat constructor; cbn; lia.
Qed.

(** Sources of classes 7 and 3; a classifier that predicts its first label. *)
Example C233_ex2 :
  (exists out, otlp_discrete (fun (_ _ : list nat) _ _ => Ok [[1/3; 1/6]; [1/6; 1/3]]%R) [10; 20; 30; 40] [7; 0; 3; 0]%Z None [1; -2; 1; -2]%Z = Ok out /\
     length out = 4 /\ Forall (fun c => In c [7; 3]%Z) (rows_of is_target [1; -2; 1; -2]%Z out)) /\
  learnt_w (fun (_ : list nat) (y : list Z) (_ : list R) => match y with [] => Err ValueError | c :: _ => Ok c end) (fun e _ => e).
Proof.
  split.
  - eapply (C233_label_propagation (fun (_ _ : list nat) _ _ => Ok [[1/3; 1/6]; [1/6; 1/3]]%R) [10; 20; 30; 40] [7; 0; 3; 0]%Z None [1; -2; 1; -2]%Z); try reflexivity; [discriminate|discriminate|cbn; lia].
  - intros xs [|c ys] ws e x H; [discriminate|]. injection H as <-. now left.
Qed.
