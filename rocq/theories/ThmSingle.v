(** C231: with a target domain of a single sample, transport of labels gives it the weighted average, or the heaviest class, of the sources. *)
From Coq Require Import List ZArith Bool Arith Lia Reals Lra Psatz.
From Verif Require Import Np NpFacts Labels Spec SpecFacts UtilsModel SelectModel RVec RVecFacts OTModel OTSpec OTProofs OTProofs2 OTProofs3 ThmOT
  MapModel RMat ThmJdot ThmSame ThmMass.
Import ListNotations.
Local Open Scope nat_scope.
Local Open Scope list_scope.

(** ** Facts *)
(** A single target has all the mass. *)
Lemma one_target b : length b = 1 -> Forall (fun x => 0 < x)%R b -> (exists wt, b = proportions 1 wt) -> b = [1%R].
Proof.
  intros L P [[l|] E]; cbn in E.
  - destruct l as [|w [|? ?]]; subst b; try discriminate. cbn in *. inversion P as [|? ? H _]; subst. f_equal. unfold vsum in *. cbn in *.
    destruct (Req_dec w 0) as [->|N]; [exfalso; unfold Rdiv in H; rewrite Rmult_0_l in H; lra|]. field. lra.
  - subst b. f_equal. cbn. apply Rinv_1.
Qed.
Lemma one_column a G i : coupling a [1%R] G -> i < length a -> at2 G i 0 = nth i a 0%R.
Proof. intros (_ & _ & Rw & _) Hi. rewrite <- (Rw i Hi). cbn. ring. Qed.
Lemma one_moved a G ys : coupling a [1%R] G -> length ys = length a -> moved_label G ys [1%R] 0 = average a ys.
Proof.
  intros HG L. rewrite moved_msum by (destruct HG as ((LG & _) & _); congruence). cbn [nth]. unfold average. rewrite L. unfold Rdiv. rewrite Rinv_1, Rmult_1_r.
  apply msum_ext. intros i Hi. rewrite (one_column a G i HG Hi). ring.
Qed.
Lemma one_mass a G ys c : coupling a [1%R] G -> length ys = length a -> dot (col G 0) (map (fun y => if (y =? c)%Z then 1%R else 0%R) ys) = share a ys c.
Proof.
  intros HG L. destruct HG as ((LG & M) & Rest). rewrite dot_at by (unfold col; rewrite !map_length; congruence). unfold col. rewrite map_length, LG.
  unfold share. apply msum_ext. intros i Hi. rewrite (map_nth' _ []) by lia. rewrite (map_nth' _ 0%Z) by lia.
  pose proof (one_column a G i (conj (conj LG M) Rest) Hi) as E. unfold at2 in E. rewrite E. destruct (nth i ys 0 =? c)%Z; ring.
Qed.
Lemma loop_holds {S} (step : nat -> S -> res (S * R * R)) tol n (P : S -> Prop) :
  (forall i s s' lot l, step i s = Ok (s', lot, l) -> P s') ->
  forall k i s pot pl s' lot l w, P s -> jdot_loop step tol n k i s pot pl = Ok (s', lot, l, w) -> P s'.
Proof.
  intros H. induction k as [|k IH]; intros i s pot pl s' lot l w Ps E; cbn [jdot_loop] in E; [injection E as <- _ _ _; exact Ps|].
  apply bind_ok in E as [[[s1 lo1] ll1] [E1 E]]. pose proof (H _ _ _ _ _ E1) as P1. cbn beta iota in E.
  destruct (small_change tol lo1 pot); [injection E as <- _ _ _; exact P1|]. destruct (small_change tol ll1 pl); [injection E as <- _ _ _; exact P1|].
  destruct (i =? n - 1); [injection E as <- _ _ _; exact P1|]. apply bind_ok in E as [[[[s2 a2] b2] w2] [E2 E]]. cbn beta iota in E. injection E as <- _ _ _.
  eapply IH; eauto.
Qed.

(** ** OTLabelProp *)
(** Regression: the target gets the weighted average of the source labels, whatever the features, the metric and the solver. *)
Theorem C231_label_regression : forall {Xrow} (plan : list Xrow -> list Xrow -> list R -> list R -> res (list (list R))) X y sw sd out,
  sd <> [] -> length X = length sd -> length y = length sd -> (forall w, sw = Some w -> length w = length sd) -> how_many is_target sd = 1 ->
  let a := proportions (how_many is_source sd) (opt_rows is_source sd sw) in
  let b := proportions 1 (opt_rows is_target sd sw) in
  (forall Xs Xt G, plan Xs Xt a b = Ok G -> coupling a b G) -> Forall (fun x => 0 < x)%R b ->
  otlp_regression plan X y sw sd = Ok out ->
  rows_of is_target sd out = [Some (average a (rows_of is_source sd y))].
Proof.
  intros Xrow plan X y sw sd out Hsd HX Hy Hw H1 a b HP Hb E.
  destruct (C210_label_propagation plan X y sw sd out Hsd HX Hy Hw) as (l & L1 & L2 & A & _); rewrite ?H1; auto.
  rewrite H1 in L2, A. destruct l as [|v [|? ?]]; try discriminate. rewrite L1. cbn. do 2 f_equal. fold a b in A. rewrite <- A.
  assert (EB : b = [1%R]).
  { apply one_target; auto; [|eexists; reflexivity]. unfold b. destruct sw as [w|]; [|reflexivity]. cbn. rewrite map_length, rows_of_length, H1; auto. symmetry. now apply Hw. }
  rewrite EB. unfold average. cbn. ring.
Qed.

(** Classification: the target gets the class with the largest total weight among the sources, the smallest one on ties. *)
Definition majority (a : list R) (ys : list Z) (c : Z) : Prop :=
  In c ys /\ (forall c', In c' ys -> (share a ys c' <= share a ys c)%R) /\ (forall c', In c' ys -> share a ys c' = share a ys c -> (c <= c')%Z).
Lemma mass_share a G ys c : coupling a [1%R] G -> length ys = length a -> mass_of G ys c 0 = share a ys c.
Proof.
  intros HG L. rewrite <- (one_mass a G ys c HG L). destruct HG as ((LG & _) & _). assert (LL : length G = length ys) by congruence. clear - LL.
  revert G LL. induction ys as [|y ys IH]; intros [|g G] LL; try discriminate; [reflexivity|].
  unfold mass_of, col in *. cbn [combine filter map fst snd]. specialize (IH G ltac:(now injection LL)). unfold dot in *. cbn [map2 map] in *.
  destruct (y =? c)%Z; cbn [map snd] in *; unfold vsum in *; cbn [fold_right] in *; rewrite IH; ring.
Qed.
Theorem C231_label_class : forall {Xrow} (plan : list Xrow -> list Xrow -> list R -> list R -> res (list (list R))) X y sw sd G,
  sd <> [] -> length X = length sd -> length y = length sd -> (forall w, sw = Some w -> length w = length sd) ->
  0 < how_many is_source sd -> how_many is_target sd = 1 ->
  let a := proportions (how_many is_source sd) (opt_rows is_source sd sw) in
  let b := proportions 1 (opt_rows is_target sd sw) in
  plan (rows_of is_source sd X) (rows_of is_target sd X) a b = Ok G -> coupling a b G -> Forall (fun x => 0 < x)%R b ->
  exists out c, otlp_discrete plan X y sw sd = Ok out /\ rows_of is_target sd out = [c] /\ majority a (rows_of is_source sd y) c.
Proof.
  intros Xrow plan X y sw sd G Hsd HX Hy Hw Hs H1 a b HP HG Hb.
  assert (LA : length a = how_many is_source sd).
  { unfold a. destruct sw as [w|]; cbn [opt_rows proportions]; [|apply repeat_length]. rewrite map_length, rows_of_length; auto. symmetry. now apply Hw. }
  assert (EB : b = [1%R]).
  { apply one_target; auto; [|eexists; reflexivity]. unfold b. destruct sw as [w|]; [|reflexivity]. cbn. rewrite map_length, rows_of_length, H1; auto. symmetry. now apply Hw. }
  destruct (C52_discrete_labels plan X y sw sd G Hsd HX Hy Hw Hs) as (labels & out & E & (L & S & T) & LL & H).
  { rewrite H1. exact HP. }
  { rewrite <- LA. apply HG. }
  rewrite H1 in LL, H. destruct labels as [|c [|? ?]]; try discriminate. exists out, c. split; [exact E|]. split; [exact T|].
  specialize (H 0 ltac:(lia)). cbn [nth] in H. rewrite EB in HG. unfold heaviest in H. unfold majority.
  assert (Ly : length (rows_of is_source sd y) = length a) by (rewrite rows_of_length; congruence).
  destruct H as (I & M & F). split; [exact I|]. split.
  - intros c' I'. rewrite <- !(mass_share a G) by assumption. now apply M.
  - intros c' I' Q. apply F; auto. now rewrite !(mass_share a G) by assumption.
Qed.

(** ** JDOT *)
(** Regression: the estimator returned is the one fitted on the target sample with the weighted average of the source labels. *)
Theorem C231_jdot_regression : forall {Est} solve (fit : list R -> option (list R) -> res (Est * list R)) alpha tol n D ys ws wt est lot llab T w,
  let a := proportions (length ys) ws in let b := proportions 1 wt in
  length a = length ys -> length b = 1 ->
  (forall M T v, solve M a b = Ok (T, v) -> coupling a b T) -> Forall (fun x => 0 < x)%R b ->
  solve_jdot_regression solve fit alpha tol n D ys 1 ws wt = Ok (est, lot, llab, T, w) ->
  exists p, fit [average a ys] wt = Ok (est, p).
Proof.
  intros Est solve fit alpha tol n D ys ws wt est lot llab T w a b La Lb Hs Hb E. unfold solve_jdot_regression in E. rewrite !marginal_proportions in E. fold a b in E.
  assert (EB : b = [1%R]) by (apply one_target; auto; eexists; reflexivity).
  apply bind_ok in E as [[[[s l1] l2] w1] [E1 E]]. cbn beta iota in E. destruct (snd s) as [[e' T']|] eqn:Es; [|discriminate]. injection E as <- _ _ _ _.
  assert (P : match snd s with Some (e, _) => exists p, fit [average a ys] wt = Ok (e, p) | None => True end); [|rewrite Es in P; exact P].
  eapply (loop_holds (reg_step solve fit alpha (norm_mean D) ys a b wt) tol n
    (fun s : list (list R) * option (Est * list (list R)) => match snd s with Some (e, _) => exists p, fit [average a ys] wt = Ok (e, p) | None => True end)); [|cycle 1|exact E1]; [|exact I].
  intros i s0 s1 lo ll H. unfold reg_step in H. apply bind_ok in H as [[T0 v] [E0 H]]. cbn beta iota in H. apply Hs in E0.
  rewrite transported_moved in H by (rewrite <- La; apply E0). rewrite Lb in H. cbn [seq map] in H.
  rewrite EB in E0, H. rewrite (one_moved a T0 ys E0 (eq_sym La)) in H. apply bind_ok in H as [[e p] [Ef H]]. cbn beta iota in H.
  apply bind_ok in H as [d [_ H]]. injection H as <- _ _. cbn. now exists p.
Qed.

Lemma one_label_plan a T ys labels : coupling a [1%R] T -> length ys = length a -> NoDup labels ->
  label_plan T (map (onehot labels) ys) 1 (length labels) = [map (share a ys) labels].
Proof.
  intros HT L N. unfold label_plan. cbn [seq map]. f_equal. apply (nth_ext _ _ 0%R 0%R); rewrite ?map_length, ?seq_length; [reflexivity|]. intros k Hk.
  rewrite (map_nth' _ 0) by (now rewrite seq_length). rewrite seq_nth by exact Hk. rewrite Nat.add_0_l, (map_nth' _ 0%Z) by exact Hk. cbn [INR]. rewrite Rmult_1_r.
  rewrite <- (one_mass a T ys _ HT L). f_equal. unfold col. rewrite map_map. apply map_ext. intros y. unfold onehot. now rewrite (map_nth' _ 0%Z) by exact Hk.
Qed.
Lemma kept_triples {X} (x : X) (f : Z -> R) (q : R -> bool) labels :
  filter (fun t => q (snd t)) (all_triples [x] [map f labels] labels) = map (fun c => (x, c, f c)) (filter (fun c => q (f c)) labels).
Proof.
  unfold all_triples. cbn [combine flat_map fst snd]. rewrite app_nil_r. induction labels as [|c l IH]; [reflexivity|]. cbn. destruct (q (f c)); cbn; now rewrite IH.
Qed.
Lemma has_max (l : list R) : l <> [] -> exists m, is_max m l.
Proof.
  induction l as [|x l IH]; [congruence|]. intros _. destruct l as [|y l].
  - exists x. split; [now left|]. repeat constructor; lra.
  - destruct IH as [m [I F]]; [discriminate|]. destruct (Rle_dec x m).
    + exists m. split; [now right|constructor; auto].
    + exists x. split; [now left|]. constructor; [lra|]. eapply Forall_impl; [|exact F]. cbn. intros; lra.
Qed.
(** Classification: the estimator returned is the one fitted on copies of the target sample, one for each class of the sources whose share exceeds the
    threshold, weighted by these shares. *)
Theorem C231_jdot_classification : forall {Est Xrow} solve (fit : list Xrow -> list Z -> list R -> res Est) pred metric alpha thr tol n D ys x ws wt est lot llab T w,
  let a := proportions (length ys) ws in let b := proportions 1 wt in
  ys <> [] -> length a = length ys -> length b = 1 ->
  (forall M T v, solve M a b = Ok (T, v) -> coupling a b T) -> Forall (fun x => 0 < x)%R b ->
  solve_jdot_classification solve fit pred metric alpha thr tol n D ys [x] ws wt = Ok (est, lot, llab, T, w) ->
  exists m kept, is_max m (map (share a ys) (unique ys)) /\ kept = filter (fun c => if Rlt_dec (thr * m) (share a ys c) then true else false) (unique ys) /\
    fit (map (fun _ => x) kept) kept (map (share a ys) kept) = Ok est.
Proof.
  intros Est Xrow solve fit pred metric alpha thr tol n D ys x ws wt est lot llab T w a b Ny La Lb Hs Hb E.
  unfold solve_jdot_classification in E. cbn [length] in E. rewrite !marginal_proportions in E. fold a b in E.
  assert (EB : b = [1%R]) by (apply one_target; auto; eexists; reflexivity).
  apply bind_ok in E as [[[[s l1] l2] w1] [E1 E]]. cbn beta iota in E. destruct (snd s) as [[e' T']|] eqn:Es; [|discriminate]. injection E as <- _ _ _ _.
  assert (NU : unique ys <> []) by (intros Q; apply (proj1 (unique_nil _)) in Q; congruence).
  destruct (has_max (map (share a ys) (unique ys))) as [m Hm]; [intros Q; now apply map_eq_nil in Q|].
  exists m, (filter (fun c => if Rlt_dec (thr * m) (share a ys c) then true else false) (unique ys)). split; [exact Hm|]. split; [reflexivity|].
  set (good := fun e => fit (map (fun _ => x) (filter (fun c => if Rlt_dec (thr * m) (share a ys c) then true else false) (unique ys)))
    (filter (fun c => if Rlt_dec (thr * m) (share a ys c) then true else false) (unique ys))
    (map (share a ys) (filter (fun c => if Rlt_dec (thr * m) (share a ys c) then true else false) (unique ys))) = Ok e).
  assert (P : match snd s with Some (e, _) => good e | None => True end); [|rewrite Es in P; exact P].
  eapply (loop_holds (cls_step solve fit pred metric alpha thr (norm_mean D) ys [x] a b) tol n
    (fun s : list (list R) * option (Est * list (list R)) => match snd s with Some (e, _) => good e | None => True end)); [|cycle 1|exact E1]; [|exact I].
  intros i s0 s1 lo ll H. unfold cls_step in H. cbn [length] in H. apply bind_ok in H as [[T0 v] [E0 H]]. cbn beta iota in H. apply Hs in E0.
  rewrite EB in E0. rewrite (one_label_plan a T0 ys (unique ys) E0 (eq_sym La) (unique_NoDup ys)) in H.
  destruct (C55_fitting_data [x] [map (share a ys) (unique ys)] (unique ys) thr m) as (kept & EK & Ek).
  { discriminate. }
  { split; [reflexivity|]. constructor; [now rewrite map_length|constructor]. }
  { cbn. now rewrite app_nil_r. }
  rewrite EK in H. cbn [bind] in H. rewrite (kept_triples x (share a ys) (fun r => if Rlt_dec (thr * m) r then true else false)) in Ek. subst kept.
  rewrite !map_map in H. cbn [fst snd] in H. rewrite map_id in H. apply bind_ok in H as [e [Ef H]].
  apply bind_ok in H as [Ml [_ H]]. apply bind_ok in H as [q [_ H]]. injection H as <- _ _. cbn. exact Ef.
Qed.

(** Three sources labelled 2, 5 and 5 with weights 1, 2 and 1: the target gets the label 17/4, or the class 5. *)
Example C231_ex : let sd := [1; -2; 1; 1]%Z in let sw := Some [1; 7; 2; 1]%R in
  let plan := fun (_ _ : list nat) (a b : list R) => Ok (map (fun t => [t]) a) in
  proportions 3 (opt_rows is_source sd sw) = [1 / 4; 1 / 2; 1 / 4]%R /\ coupling [1 / 4; 1 / 2; 1 / 4]%R [1%R] (map (fun t => [t]) [1 / 4; 1 / 2; 1 / 4]%R) /\
  average [1 / 4; 1 / 2; 1 / 4]%R [2; 5; 5]%R = (17 / 4)%R /\ majority [1 / 4; 1 / 2; 1 / 4]%R [2; 5; 5]%Z 5 /\
  (exists out, otlp_regression plan [0; 9; 3; 4] [2; 0; 5; 5]%R sw sd = Ok out /\ rows_of is_target sd out = [Some (17 / 4)%R]).
Proof.
  intros sd sw plan.
  assert (EP : proportions 3 (opt_rows is_source sd sw) = [1 / 4; 1 / 2; 1 / 4]%R) by (cbn; unfold vsum; cbn; repeat (apply (f_equal2 (@cons _)); [lra|]); reflexivity).
  assert (CP : coupling [1 / 4; 1 / 2; 1 / 4]%R [1%R] (map (fun t => [t]) [1 / 4; 1 / 2; 1 / 4]%R)).
  { split; [split; [reflexivity|repeat constructor]|]. split; [|split].
    - intros [|[|[|i]]] [|j] Hi Hj; cbn in *; try lia; lra.
    - intros [|[|[|i]]] Hi; cbn in *; try lia; lra.
    - intros [|j] Hj; cbn in *; try lia; lra. }
  assert (AV : average [1 / 4; 1 / 2; 1 / 4]%R [2; 5; 5]%R = (17 / 4)%R) by (unfold average; cbn; lra).
  split; [exact EP|]. split; [exact CP|]. split; [exact AV|]. split.
  - unfold majority, share. split; [cbn; tauto|]. split; intros c' Hc; cbn in Hc; destruct Hc as [<-|[<-|[<-|[]]]]; cbn; lra || lia.
  - assert (EB : proportions 1 (opt_rows is_target sd sw) = [1%R]) by (cbn; unfold vsum; cbn; f_equal; lra).
    assert (EX : exists out, otlp_regression plan [0; 9; 3; 4] [2; 0; 5; 5]%R sw sd = Ok out) by (eexists; reflexivity). destruct EX as [out EO].
    exists out. split; [exact EO|].
    pose proof (C231_label_regression plan [0; 9; 3; 4] [2; 0; 5; 5]%R sw sd out) as H. cbv zeta in H. change (how_many is_source sd) with 3 in H. rewrite EP, EB in H.
    change (rows_of is_source sd [2; 0; 5; 5]%R) with [2; 5; 5]%R in H. rewrite AV in H. apply H; auto; try discriminate.
    + intros w [= <-]. reflexivity.
    + intros Xs Xt G [= <-]. exact CP.
    + constructor; [lra|constructor].
Qed.
