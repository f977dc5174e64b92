(** Proofs about OTModel: JDOT. *)
From Coq Require Import String List ZArith QArith Bool Arith Lia Reals Lra Sorted.
From Verif Require Import Np NpFacts Labels UtilsModel Spec SpecFacts UtilsSpec UtilsProofs UtilsProofs2 RVec RVecFacts OTModel OTSpec OTProofs.
Import ListNotations.
Local Open Scope nat_scope.
Local Open Scope list_scope.

Lemma map2_const_l {A B C} (f : B -> C) (u : list A) : forall v, length u = length v -> map2 (fun _ y => f y) u v = map f v.
Proof. induction u as [|x u IH]; intros [|y v] E; try discriminate; [reflexivity|]. cbn [map2 map]. f_equal. apply IH. now injection E. Qed.

Lemma map2_map_r {A B C D} (f : A -> C -> D) (g : B -> C) u : forall v, map2 f u (map g v) = map2 (fun x y => f x (g y)) u v.
Proof. induction u as [|x u IH]; intros [|y v]; try reflexivity. cbn [map2 map]. now rewrite IH. Qed.

Lemma map2_flip {A B C} (f : A -> B -> C) u : forall v, map2 f u v = map2 (fun y x => f x y) v u.
Proof. induction u as [|x u IH]; intros [|y v]; try reflexivity. cbn [map2]. now rewrite IH. Qed.

Lemma map2_ext_in {A B C} (f g : A -> B -> C) u : forall v, (forall x y, In x u -> In y v -> f x y = g x y) -> map2 f u v = map2 g u v.
Proof.
  induction u as [|x u IH]; intros [|y v] H; try reflexivity. cbn [map2].
  rewrite H by (now left). f_equal. apply IH. intros. apply H; now right.
Qed.

Lemma cost_next alpha Mf ys p i : 0 < i ->
  jdot_cost alpha Mf (sqdist ys p) i = map2 (fun y row => map2 (fun f q => (1 - alpha) * f + alpha * ((y - q) * (y - q)))%R row p) ys Mf.
Proof.
  intros Hi. unfold jdot_cost, sqdist. destruct (Nat.ltb_spec 0 i); [|lia].
  rewrite map2_map_r, map2_flip. apply map2_ext_in. intros y row _ _. now rewrite map2_map_r.
Qed.

Lemma cost_first alpha Mf Ml (ys : list R) : length ys = length Mf ->
  jdot_cost alpha Mf Ml 0 = map2 (fun y row => map (fun f => (1 - alpha) * f)%R row) ys Mf.
Proof. intros H. unfold jdot_cost. cbn [Nat.ltb Nat.leb]. now rewrite map2_const_l. Qed.

Lemma inner_first ys nt T : Forall (fun r => length r = nt) T ->
  inner_mat (sqdist ys (repeat 0%R nt)) T = vsum (map2 (fun y row => vsum (map (fun t => y * y * t) row)) ys T)%R.
Proof.
  intros HT. unfold inner_mat, sqdist. f_equal. revert T HT.
  induction ys as [|y ys IH]; intros [|r T] HT; try reflexivity. apply Forall_cons_iff in HT as [Hr HT].
  cbn [map map2]. rewrite IH by auto. f_equal. clear -Hr. revert r Hr. induction nt as [|n IH]; intros [|t r] Hr; try discriminate; [reflexivity|].
  cbn [repeat map vsum]. rewrite dot_cons, IH by (now injection Hr). ring.
Qed.

Lemma norm_mean_is D : norm_mean D = map (map (fun d => d / mean (concat D))%R) D.
Proof. reflexivity. Qed.

Section Reg.
  Context {Est : Type}.
  Variable solve : list (list R) -> list R -> list R -> res (list (list R) * R).
  Variable fit : list R -> option (list R) -> res (Est * list R).
  Variables (alpha : R) (D : list (list R)) (ys a b : list R) (wt : option (list R)).
  Hypothesis Hsolve : forall M T v, solve M a b = Ok (T, v) -> matrix (length ys) (length b) T.
  Hypothesis HD : length D = length ys.
  Let step := reg_step solve fit alpha (norm_mean D) ys a b wt.
  Definition prev_pred (pv : option (list R)) : list R := match pv with None => repeat 0%R (length b) | Some p => p end.

  Lemma reg_step_iteration i s s' x y pv : (i = 0 <-> pv = None) -> fst s = sqdist ys (prev_pred pv) -> step i s = Ok (s', x, y) ->
    exists T v est yp, reg_iteration solve fit alpha D ys a b wt pv T v est yp x y /\ fst s' = sqdist ys yp /\ snd s' = Some (est, T).
  Proof.
    intros Hi Hs E. unfold step, reg_step in E. rewrite Hs in E.
    destruct (solve _ a b) as [[T v]|] eqn:Eo; [|discriminate]. cbn [bind] in E.
    destruct (Hsolve _ _ _ Eo) as [HT1 HT2].
    destruct (fit _ wt) as [[est yp]|] eqn:Ef; [|discriminate]. cbn [bind] in E.
    destruct (np_map2 _ _ yp) as [d|] eqn:Ed; [|discriminate]. cbn [bind] in E. injection E as <- <- <-.
    apply np_map2_ok in Ed as [L ->].
    exists T, v, est, yp. split; [|split; reflexivity].
    rewrite transported_moved in * by auto. rewrite map_length, seq_length in L.
    unfold reg_iteration. cbv zeta. split; [|split; [exact Ef|split]].
    - rewrite <- Eo. f_equal. rewrite <- norm_mean_is. destruct pv as [p|].
      + symmetry. apply cost_next. destruct i; [discriminate (proj1 Hi eq_refl)|lia].
      + rewrite (proj2 Hi eq_refl). symmetry. apply cost_first. rewrite norm_mean_is, map_length. auto.
    - destruct pv as [p|].
      + destruct i; [discriminate (proj1 Hi eq_refl)|]. reflexivity.
      + rewrite (proj2 Hi eq_refl). cbn [Nat.eqb prev_pred]. now rewrite inner_first.
    - unfold mean. f_equal. f_equal. rewrite map2_length; now rewrite map_length, seq_length.
  Qed.

  Lemma reg_trace (d : Est) i s lot llab s' : trace step i s lot llab s' -> forall pv, (i = 0 <-> pv = None) -> fst s = sqdist ys (prev_pred pv) ->
    exists T v (est : nat -> Est) yp,
      (forall j, j < length lot -> reg_iteration solve fit alpha D ys a b wt (match j with 0 => pv | Datatypes.S j' => Some (yp j') end)
         (T j) (v j) (est j) (yp j) (nth j lot 0%R) (nth j llab 0%R)) /\
      (0 < length lot -> snd s' = Some (est (length lot - 1), T (length lot - 1))).
  Proof.
    induction 1 as [i s|i s s1 x y lx ly s' E Tr IH]; intros pv Hi Hs.
    - exists (fun _ => []), (fun _ => 0%R), (fun _ => d), (fun _ => []). split; simpl; intros; lia.
    - destruct (reg_step_iteration i s s1 x y pv Hi Hs E) as (T & v & est & yp & I & F1 & F2).
      destruct (IH (Some yp)) as (T' & v' & est' & yp' & I' & F'); [split; [lia|discriminate]|exact F1|].
      exists (fun j => match j with 0 => T | Datatypes.S j => T' j end), (fun j => match j with 0 => v | Datatypes.S j => v' j end),
             (fun j => match j with 0 => est | Datatypes.S j => est' j end), (fun j => match j with 0 => yp | Datatypes.S j => yp' j end).
      split.
      + intros [|j] Hj; [exact I|]. cbn [nth]. cbn [length] in Hj. assert (Hj' : j < length lx) by lia. specialize (I' j Hj').
        destruct j; exact I'.
      + intros _. destruct lx as [|x1 lx].
        * inversion Tr; subst. exact F2.
        * rewrite F' by (simpl; lia). simpl. now rewrite ?Nat.sub_0_r.
  Qed.

  Lemma reg_step_total i s : (forall M, exists r, solve M a b = Ok r) ->
    (forall yth, length yth = length b -> exists e yp, fit yth wt = Ok (e, yp) /\ length yp = length b) ->
    exists s' x y, step i s = Ok (s', x, y) /\ exists r, snd s' = Some r.
  Proof.
    intros Ho Hf. unfold step, reg_step. destruct (Ho (jdot_cost alpha (norm_mean D) (fst s) i)) as [[T v] E]. rewrite E. cbn [bind].
    destruct (Hsolve _ _ _ E) as [H1 _]. rewrite transported_moved by auto.
    destruct (Hf (map (moved_label T ys b) (seq 0 (length b)))) as (e & yp & Ef & L); [now rewrite map_length, seq_length|].
    rewrite Ef. cbn [bind]. rewrite np_map2_eq by now rewrite map_length, seq_length. cbn [bind].
    eexists _, _, _. split; [reflexivity|]. eexists. reflexivity.
  Qed.
End Reg.

Lemma trace_snd {S} (step : nat -> S -> res (S * R * R)) (P : S -> Prop) :
  (forall i s s' x y, step i s = Ok (s', x, y) -> P s') ->
  forall i s lot llab s', trace step i s lot llab s' -> 0 < length lot -> P s'.
Proof.
  intros H i s lot llab s' T. induction T as [|i s s1 x y lx ly s' E T IH]; intros L; [simpl in L; lia|].
  destruct lx; [inversion T; subst; eapply H; eauto|]. apply IH. simpl. lia.
Qed.

(** ** Classification *)
Section Cls.
  Context {Est Xrow : Type}.
  Variable solve : list (list R) -> list R -> list R -> res (list (list R) * R).
  Variable fit : list Xrow -> list Z -> list R -> res Est.
  Variable pred : Est -> list Xrow -> tgt_pred.
  Variables (metric : jmetric) (alpha thr : R) (D : list (list R)) (ys : list Z) (Xt : list Xrow) (a b : list R).
  Let step := cls_step solve fit pred metric alpha thr (norm_mean D) ys Xt a b.
  Definition cls_iteration (Ml : list (list R)) (first : bool) (T : list (list R)) (v : R) (est : Est) (Ml' : list (list R)) (x y : R) : Prop :=
    let feat := map (map (fun d => d / mean (concat D))%R) D in
    let labels := unique ys in
    let Ys := map (onehot labels) ys in
    solve (if first then map (map (fun f => (1 - alpha) * f)%R) feat
           else map2 (map2 (fun f l => (1 - alpha) * f + alpha * l)%R) feat Ml) a b = Ok (T, v) /\
    x = (if first then v + alpha * vsum (map2 dot Ml T) else v)%R /\
    exists Xh yh wh l, jdot_data Xt (label_plan T Ys (length Xt) (length labels)) labels thr = Ok (Xh, yh, wh) /\
      fit Xh yh wh = Ok est /\ class_cost metric Ys (pred est Xt) = Ok Ml' /\
      tgt_loss metric (map (onehot labels) yh) wh (pred est Xh) = Ok l /\ y = (l / INR (length Xt))%R.

  Lemma cls_step_iteration i s s' x y : step i s = Ok (s', x, y) ->
    exists T v est, cls_iteration (fst s) (i =? 0) T v est (fst s') x y /\ snd s' = Some (est, T).
  Proof.
    unfold step, cls_step. intros E.
    destruct (solve _ a b) as [[T v]|] eqn:Eo; [|discriminate]. cbn [bind] in E.
    destruct (jdot_data _ _ _ _) as [[[Xh yh] wh]|] eqn:Ej; [|discriminate]. cbn [bind] in E.
    destruct (fit Xh yh wh) as [est|] eqn:Ef; [|discriminate]. cbn [bind] in E.
    destruct (class_cost _ _ _) as [Ml'|] eqn:Ec; [|discriminate]. cbn [bind] in E.
    destruct (tgt_loss _ _ _ _) as [l|] eqn:El; [|discriminate]. cbn [bind] in E. injection E as <- <- <-.
    exists T, v, est. split; [|reflexivity]. unfold cls_iteration. cbn [fst]. split; [|split].
    - rewrite <- Eo. f_equal. unfold jdot_cost. now destruct i.
    - now destruct i.
    - exists Xh, yh, wh, l. repeat split; auto.
  Qed.

  Lemma cls_trace (d : Est) i s lot llab s' : trace step i s lot llab s' ->
    exists T v (est : nat -> Est) Ml,
      (forall j, j < length lot -> cls_iteration (match j with 0 => fst s | Datatypes.S j' => Ml j' end) (i + j =? 0)
         (T j) (v j) (est j) (Ml j) (nth j lot 0%R) (nth j llab 0%R)) /\
      (0 < length lot -> snd s' = Some (est (length lot - 1), T (length lot - 1))).
  Proof.
    induction 1 as [i s|i s s1 x y lx ly s' E Tr IH].
    - exists (fun _ => []), (fun _ => 0%R), (fun _ => d), (fun _ => []). split; simpl; intros; lia.
    - destruct (cls_step_iteration i s s1 x y E) as (T & v & est & I & F2).
      destruct IH as (T' & v' & est' & Ml' & I' & F').
      exists (fun j => match j with 0 => T | Datatypes.S j => T' j end), (fun j => match j with 0 => v | Datatypes.S j => v' j end),
             (fun j => match j with 0 => est | Datatypes.S j => est' j end), (fun j => match j with 0 => fst s1 | Datatypes.S j => Ml' j end).
      split.
      + intros [|j] Hj; [now rewrite Nat.add_0_r|]. cbn [nth]. cbn [length] in Hj. assert (Hj' : j < length lx) by lia. specialize (I' j Hj').
        rewrite Nat.add_succ_r. cbn [plus] in I'. destruct j; exact I'.
      + intros _. destruct lx as [|x1 lx].
        * inversion Tr; subst. exact F2.
        * rewrite F' by (simpl; lia). simpl. now rewrite ?Nat.sub_0_r.
  Qed.
End Cls.

(** ** The fitting data *)
Lemma list_max_spec l : forall x, is_max (list_max x l) (x :: l).
Proof.
  induction l as [|y l IH]; intros x; cbn [list_max].
  - split; [now left|repeat constructor; lra].
  - destruct (IH (Rmax x y)) as [H1 H2]. apply Forall_cons_iff in H2 as [H2 H3].
    assert (x <= Rmax x y)%R by apply Rmax_l. assert (y <= Rmax x y)%R by apply Rmax_r. split.
    + destruct H1 as [H1|H1]; [|now right; right]. rewrite <- H1. destruct (Rle_dec x y) as [K|K].
      * right. left. symmetry. now apply Rmax_right.
      * left. symmetry. apply Rmax_left. lra.
    + constructor; [lra|]. constructor; [lra|auto].
Qed.

Lemma is_max_unique m m' l : is_max m l -> is_max m' l -> m = m'.
Proof.
  intros [H1 H2] [H3 H4]. rewrite Forall_forall in H2, H4. apply Rle_antisym; auto.
Qed.

Lemma np_max_spec l m : is_max m l -> np_max l = Ok m.
Proof.
  destruct l as [|x l]; [intros [[] _]|]. intros H. cbn [np_max]. f_equal. eapply is_max_unique; [apply list_max_spec|exact H].
Qed.

Lemma np_max_ok l m : np_max l = Ok m -> is_max m l.
Proof. destruct l as [|x l]; [discriminate|]. intros [= <-]. apply list_max_spec. Qed.

Lemma triples_parts {X L} (Xt : list X) Yth (labels : list L) n : matrix (length Xt) n Yth -> length labels = n ->
  map (fun t => fst (fst t)) (all_triples Xt Yth labels) = flat_map (fun x => repeat x n) Xt /\
  map (fun t => snd (fst t)) (all_triples Xt Yth labels) = concat (repeat labels (length Yth)) /\
  map snd (all_triples Xt Yth labels) = concat Yth.
Proof.
  intros [H1 H2] HL. unfold all_triples. revert Yth H1 H2.
  induction Xt as [|x Xt IH]; intros [|r Yth] H1 H2; try discriminate; [repeat split|].
  apply Forall_cons_iff in H2 as [Hr H2]. injection H1 as H1. destruct (IH Yth H1 H2) as (I1 & I2 & I3).
  cbn [combine flat_map length repeat concat]. rewrite !map_app, I1, I2, I3, !map_map. cbn [fst snd].
  assert (C : forall (l : list L) (w : list R), length l = length w ->
     map (fun _ => x) (combine l w) = repeat x (length w) /\ map fst (combine l w) = l /\ map snd (combine l w) = w).
  { induction l as [|c l IHl]; intros [|z w] E; try discriminate; [repeat split|]. injection E as E.
    destruct (IHl w E) as (A & B & C). cbn [combine map length repeat fst snd]. rewrite A, B, C. repeat split. }
  destruct (C labels r) as (A & B & E); [congruence|]. rewrite Hr in A.
  split; [|split]; f_equal; [exact A|exact B|exact E].
Qed.

Lemma jdot_data_ok {X L} (Xt : list X) Yth (labels : list L) thr m : Xt <> [] ->
  matrix (length Xt) (length labels) Yth -> is_max m (concat Yth) ->
  jdot_data Xt Yth labels thr =
  let kept := filter (fun t => Rltb (thr * m) (snd t)) (all_triples Xt Yth labels) in
  Ok (map (fun t => fst (fst t)) kept, map (fun t => snd (fst t)) kept, map snd kept).
Proof.
  intros HX HM Hm. destruct (triples_parts Xt Yth labels (length labels) HM eq_refl) as (P1 & P2 & P3).
  unfold jdot_data. rewrite (np_max_spec _ _ Hm). cbn [bind]. cbv zeta.
  assert (length (nth 0 Yth []) = length labels) as ->.
  { destruct HM as [H1 H2]. destruct Yth as [|r Yth]; [destruct Xt; [easy|discriminate]|]. cbn [nth]. now apply Forall_cons_iff in H2. }
  rewrite <- P1, <- P2, <- P3. rewrite map_map.
  rewrite !np_select_ok by (now rewrite !map_length). cbn [bind].
  rewrite !select_map. rewrite !(select_self (fun t : X * L * R => Rltb (thr * m) (snd t))). reflexivity.
Qed.
