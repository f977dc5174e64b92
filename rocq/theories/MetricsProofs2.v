(** Proofs about the scorers, continued: label encoding, mixing, MaNo. *)
From Coq Require Import String List ZArith QArith Bool Arith Lia Reals Lra Psatz.
From Verif Require Import Np NpFacts Labels Spec SpecFacts UtilsModel UtilsSpec UtilsProofs UtilsProofs2 SelectModel
  RVec RVecFacts FWSpec FWProofs ReweightModel ReweightSpec ReweightProofs ReweightProofs2 MetricsModel MetricsSpec MetricsProofs.
Import ListNotations.
Local Open Scope nat_scope.
Local Open Scope list_scope.

(** ** Label encoding *)
Lemma filter_length_le {A} (p q : A -> bool) l : (forall x, In x l -> p x = true -> q x = true) ->
  length (filter p l) <= length (filter q l).
Proof.
  induction l as [|x l IH]; intros H; simpl; [lia|]. assert (IH' := IH (fun y Hy => H y (or_intror Hy))).
  pose proof (H x (or_introl eq_refl)) as Hx. destruct (p x); [rewrite Hx by auto; simpl; lia|]. destruct (q x); simpl; lia.
Qed.
Lemma filter_length_lt {A} (p q : A -> bool) l a : (forall x, In x l -> p x = true -> q x = true) ->
  In a l -> p a = false -> q a = true -> length (filter p l) < length (filter q l).
Proof.
  induction l as [|x l IH]; intros H Ha Pa Qa; [easy|]. simpl.
  pose proof (filter_length_le p q l (fun y Hy => H y (or_intror Hy))) as Le.
  destruct Ha as [->|Ha]; [rewrite Pa, Qa; simpl; lia|].
  assert (IH' := IH (fun y Hy => H y (or_intror Hy)) Ha Pa Qa). pose proof (H x (or_introl eq_refl)) as Hx.
  destruct (p x); [rewrite Hx by auto; simpl; lia|]. destruct (q x); simpl; lia.
Qed.

Lemma dedup_In l : forall u, In (VNum u) l -> exists v, In (VNum v) (dedup l) /\ (u == v)%Q.
Proof.
  induction l as [|x l IH]; intros u Hu; [easy|]. simpl. destruct Hu as [->|Hu].
  - destruct (existsb (val_eqb (VNum u)) l) eqn:E; [|exists u; split; [now left|reflexivity]].
    apply existsb_exists in E as [w [Hw Ew]]. destruct w as [w| |]; try discriminate. simpl in Ew. apply Qeq_bool_iff in Ew.
    destruct (IH w Hw) as [v [Hv Ev]]. exists v. split; auto. now rewrite Ew.
  - destruct (IH u Hu) as [v [Hv Ev]]. exists v. split; auto. destruct (existsb _ l); auto. now right.
Qed.

Lemma val_ltb_num p q : val_ltb (VNum p) (VNum q) = true <-> (p < q)%Q.
Proof.
  simpl. destruct (Qle_bool q p) eqn:E; simpl; split; intros H; try easy.
  - apply Qle_bool_iff in E. exfalso. apply (Qlt_not_le p q); auto.
  - apply Qnot_le_lt. intros G. apply Qle_bool_iff in G. congruence.
Qed.

Lemma le_rank_lt l u v : In (VNum u) l -> (u < v)%Q -> (le_rank l (VNum u) < le_rank l (VNum v))%Z.
Proof.
  intros Hu Hlt. unfold le_rank. apply inj_lt. destruct (dedup_In l u Hu) as [w [Hw Ew]].
  apply (filter_length_lt _ _ _ (VNum w)); auto.
  - intros x _ Hx. destruct x as [x| |b]; try exact Hx. apply val_ltb_num. apply val_ltb_num in Hx. eapply Qlt_trans; eauto.
  - destruct (val_ltb (VNum w) (VNum u)) eqn:E; auto. apply val_ltb_num in E. rewrite Ew in E. now apply Qlt_irrefl in E.
  - apply val_ltb_num. now rewrite <- Ew.
Qed.

Lemma le_rank_eq l u v : (u == v)%Q -> le_rank l (VNum u) = le_rank l (VNum v).
Proof.
  intros E. unfold le_rank. do 2 f_equal. apply filter_ext. intros x. destruct x as [x| |b]; try reflexivity. simpl.
  f_equal. destruct (Qle_bool u x) eqn:E1, (Qle_bool v x) eqn:E2; auto.
  - apply Qle_bool_iff in E1. rewrite E in E1. apply Qle_bool_iff in E1. congruence.
  - apply Qle_bool_iff in E2. rewrite <- E in E2. apply Qle_bool_iff in E2. congruence.
Qed.

Lemma le_rank_inj l u v : In (VNum u) l -> In (VNum v) l ->
  (le_rank l (VNum u) = le_rank l (VNum v) <-> (u == v)%Q).
Proof.
  intros Hu Hv. split; [|apply le_rank_eq]. intros E. destruct (Q_dec u v) as [[L|L]|Q]; auto.
  - pose proof (le_rank_lt l u v Hu L). lia.
  - pose proof (le_rank_lt l v u Hv L). lia.
Qed.

(** ** Matrices *)
Lemma np_map2_rows_ok {A B C} (f : A -> B -> C) u v r : np_map2_rows f u v = Ok r ->
  length u = length v /\ Forall2 (fun a b => length a = length b) u v /\ r = map2 (map2 f) u v.
Proof.
  unfold np_map2_rows. intros H. apply bind_ok in H as [w [Hw H]]. apply np_map2_ok in Hw as [L ->].
  assert (G : Forall2 (fun a b => length a = length b) u v /\ r = map2 (map2 f) u v); [|tauto].
  revert v r L H. induction u as [|a u IH]; intros [|b v] r L H; try discriminate.
  - simpl in H. injection H as <-. split; [constructor|reflexivity].
  - cbn [map2 mapM] in H. apply bind_ok in H as [c [Hc H]]. apply np_map2_ok in Hc as [Lab ->].
    apply bind_ok in H as [d [Hd H]]. injection H as <-. simpl in L. destruct (IH v d ltac:(lia) Hd) as [F ->]. split; [now constructor|reflexivity].
Qed.

Lemma np_map2_rows_eq {A B C} (f : A -> B -> C) u : forall v, Forall2 (fun a b => length a = length b) u v ->
  np_map2_rows f u v = Ok (map2 (map2 f) u v).
Proof.
  intros v F. unfold np_map2_rows. rewrite np_map2_eq by now apply F2_length in F. cbn [bind].
  induction F as [|a b u v L F IH]; auto. cbn [map2 mapM]. rewrite np_map2_eq by auto. cbn [bind]. now rewrite IH.
Qed.

Lemma map2_as_map {A B C} (f : A -> B -> C) da db u : forall v, length u = length v ->
  map2 f u v = map (fun i => f (nth i u da) (nth i v db)) (seq 0 (length u)).
Proof.
  induction u as [|a u IH]; intros [|b v] L; try discriminate; auto. simpl. f_equal. simpl in L.
  rewrite <- seq_shift, map_map. rewrite (IH v) by lia. reflexivity.
Qed.

Lemma nth_map2g {A B C} (f : A -> B -> C) da db dc u : forall v i, length u = length v -> i < length u ->
  nth i (map2 f u v) dc = f (nth i u da) (nth i v db).
Proof. induction u as [|a u IH]; intros [|b v] [|i] L H; simpl in *; try discriminate; try lia; auto. apply IH; lia. Qed.

(** ** The positions selected in MixVal *)
Lemma flatnonzero_filter (p : nat -> bool) n : flatnonzero (map p (seq 0 n)) = filter p (seq 0 n).
Proof.
  unfold flatnonzero. assert (G : forall k, where_from k (map p (seq k n)) = filter p (seq k n)); [|apply G].
  induction n as [|n IH]; intros k; simpl; auto. rewrite IH. now destruct (p k).
Qed.

Lemma mix_part_spec scorer n sel input label mi ml s :
  mi = map input (seq 0 n) -> ml = map label (seq 0 n) ->
  mix_part scorer (filter sel (seq 0 n)) mi ml = Ok s -> part_score scorer n sel input label s.
Proof.
  intros -> -> H. unfold part_score. cbv zeta. unfold mix_part in H.
  assert (T : forall A (f : nat -> A), np_take (filter sel (seq 0 n)) (map f (seq 0 n)) = Ok (map f (filter sel (seq 0 n)))).
  { intros A f. assert (G : forall idx, Forall (fun i => i < n) idx -> np_take idx (map f (seq 0 n)) = Ok (map f idx)).
    { intros idx F. apply np_take_ok_iff. induction F as [|i idx Hi F IH]; simpl; constructor; auto.
      apply map_nth_error. rewrite (nth_error_nth' _ 0) by (rewrite seq_length; lia). now rewrite seq_nth by lia. }
    apply G. apply Forall_forall. intros i Hi. apply filter_In in Hi as [Hi _]. apply in_seq in Hi. lia. }
  remember (filter sel (seq 0 n)) as idx. destruct idx as [|i idx].
  - left. injection H as <-. auto.
  - right. rewrite !T in H. cbn [bind] in H. apply bind_ok in H as [r [Hr H]]. injection H as <-. split; [easy|].
    exists r. split; auto. rewrite <- Hr. f_equal. change (S (length idx)) with (length (i :: idx)).
    generalize (i :: idx). induction l; simpl; congruence.
Qed.

(** ** MaNo *)
Lemma np_pow_01 x p : (0 <= x <= 1)%R -> (0 < p)%R -> (0 <= np_pow x p <= 1)%R.
Proof.
  intros [H0 H1] Hp. unfold np_pow. destruct (Reqb x 0) eqn:E; [lra|]. apply Reqb_false in E. assert (Px : (0 < x)%R) by lra.
  unfold Rpower. pose proof (exp_pos (p * ln x)). split; [lra|]. pose proof (ln_le_sub x Px).
  rewrite <- exp_0. destruct (Req_dec (p * ln x) 0) as [->|Ne]; [lra|]. left. apply exp_increasing. nra.
Qed.

Lemma vmax_ge l : forall x, (x <= vmax x l)%R /\ Forall (fun t => t <= vmax x l)%R l.
Proof.
  induction l as [|y l IH]; intros x; simpl; [split; [lra|constructor]|]. destruct (IH (Rmax x y)) as [H1 H2].
  pose proof (Rmax_l x y). pose proof (Rmax_r x y). split; [lra|]. constructor; [lra|auto].
Qed.
Lemma vmax_In l : forall x, In (vmax x l) (x :: l).
Proof.
  induction l as [|y l IH]; intros x; simpl; [now left|]. destruct (IH (Rmax x y)) as [H|H]; [|auto].
  rewrite <- H. unfold Rmax. destruct (Rle_dec x y); auto.
Qed.
Lemma vmin_le l : forall x, (vmin x l <= x)%R /\ Forall (fun t => vmin x l <= t)%R l.
Proof.
  induction l as [|y l IH]; intros x; simpl; [split; [lra|constructor]|]. destruct (IH (Rmin x y)) as [H1 H2].
  pose proof (Rmin_l x y). pose proof (Rmin_r x y). split; [lra|]. constructor; [lra|auto].
Qed.
Lemma row_min_le l : Forall (fun t => row_min l <= t)%R l.
Proof. destruct l as [|x l]; constructor; simpl; apply vmin_le. Qed.
Lemma row_max_max l : l <> [] -> In (row_max l) l /\ Forall (fun t => t <= row_max l)%R l.
Proof. destruct l as [|x l]; [easy|]. intros _. simpl. split; [apply vmax_In|]. constructor; apply vmax_ge. Qed.

Lemma row_max_shift l : l <> [] -> row_max (shift_max l) = 0%R.
Proof.
  intros H. destruct (row_max_max l H) as [Hi Hf]. assert (Hs : shift_max l <> []) by (destruct l; [easy|discriminate]).
  destruct (row_max_max _ Hs) as [Si Sf]. unfold shift_max in Si at 2. apply in_map_iff in Si as [t [Et Ht]].
  rewrite Forall_forall in Hf, Sf. specialize (Hf t Ht).
  assert (Z : In (row_max l - row_max l)%R (shift_max l)) by (unfold shift_max; apply (in_map (fun t => (t - row_max l)%R)); auto).
  specialize (Sf _ Z). lra.
Qed.

Lemma map_id_ext (f : R -> R) l : (forall t, f t = t) -> map f l = l.
Proof. intros H. rewrite <- (map_id l) at 2. now apply map_ext. Qed.

Lemma softmax_shift l : softmax_row (shift_max l) = softmax_row l.
Proof.
  destruct l as [|x l]; auto. unfold softmax_row at 1. unfold shift_max at 1. rewrite row_max_shift by easy.
  rewrite (map_id_ext (fun t => (t - 0)%R)) by (intros; lra). reflexivity.
Qed.
