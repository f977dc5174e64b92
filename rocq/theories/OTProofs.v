(** Proofs about OTModel. *)
From Coq Require Import String List ZArith QArith Bool Arith Lia Reals Lra Sorted.
From Verif Require Import Np NpFacts Labels UtilsModel Spec SpecFacts UtilsSpec UtilsProofs UtilsProofs2 RVec RVecFacts OTModel OTSpec.
Import ListNotations.
Local Open Scope nat_scope.
Local Open Scope list_scope.

Lemma marginal_proportions n w : marginal n w = proportions n w.
Proof. destruct w; [reflexivity|]. simpl. f_equal. unfold Rdiv. now rewrite Rmult_1_l. Qed.

Lemma target_mask_is sd : target_mask sd = map is_target sd.
Proof. reflexivity. Qed.

Lemma split_w {A} (w : option (list A)) sd : sd <> [] -> (forall l, w = Some l -> length l = length sd) ->
  source_target_split [w] sd = Ok [opt_rows is_source sd w; opt_rows is_target sd w].
Proof.
  intros H1 H2. rewrite split_ok; auto; [|discriminate|]. - destruct w; reflexivity.
  - intros xs [E|[]]. auto.
Qed.

Lemma otlp_parts_ok {Xrow L} (X : list Xrow) (y : list L) sw sd :
  sd <> [] -> length X = length sd -> length y = length sd -> (forall w, sw = Some w -> length w = length sd) ->
  otlp_parts X y sw sd = Ok (rows_of is_source sd X, rows_of is_target sd X, rows_of is_source sd y,
    proportions (how_many is_source sd) (opt_rows is_source sd sw), proportions (how_many is_target sd) (opt_rows is_target sd sw)).
Proof.
  intros H HX Hy Hw. unfold otlp_parts.
  rewrite (split_w (Some X)) by (auto; intros l [= <-]; auto). cbn [bind].
  rewrite (split_w (Some y)) by (auto; intros l [= <-]; auto). cbn [bind].
  rewrite (split_w sw) by auto. cbn [bind opt_rows]. rewrite !marginal_proportions, !rows_of_length by auto. reflexivity.
Qed.

(** Writing the target labels in a constant vector. *)
Lemma setmask_laid_out {A} sd (vals : list A) d n : n = length sd -> length vals = how_many is_target sd ->
  exists out, np_setmask (target_mask sd) vals (repeat d n) = Ok out /\
    laid_out sd (repeat d (how_many is_source sd)) vals out.
Proof.
  intros -> HL. unfold target_mask. change (fun d0 : Z => (d0 <? 0)%Z) with is_target.
  rewrite np_setmask_ok.
  2: now rewrite map_length, repeat_length. 2: now rewrite count_map.
  eexists. split; [reflexivity|]. repeat split.
  - now rewrite place_length, repeat_length.
  - rewrite rows_of_select.
    transitivity (select (map negb (map is_target sd)) (place (map is_target sd) vals (repeat d (length sd)))).
    { f_equal. rewrite map_map. apply map_ext. intros z. rewrite is_target_negb. now rewrite negb_involutive. }
    rewrite place_select_neg. clear HL.
    induction sd as [|z sd IH]; [reflexivity|]. cbn [map length repeat select]. unfold how_many in *. cbn [filter].
    rewrite is_target_negb, negb_involutive. destruct (is_source z); cbn [length repeat]; now rewrite IH.
  - rewrite rows_of_select. apply place_select; [now rewrite map_length, repeat_length|now rewrite count_map].
Qed.

Lemma mass_dot G ys c j : length G = length ys ->
  dot (col G j) (map (fun y => if (y =? c)%Z then 1%R else 0%R) ys) = mass_of G ys c j.
Proof.
  unfold col, mass_of. revert G. induction ys as [|y ys IH]; intros [|r G] E; try discriminate; [reflexivity|].
  cbn [map combine filter fst]. rewrite dot_cons, IH by (now injection E).
  destruct (y =? c)%Z; cbn [map vsum snd]; lra.
Qed.

Lemma sorted_nth (l : list Z) i j : StronglySorted Z.lt l -> i < j < length l -> (nth i l 0 < nth j l 0)%Z.
Proof.
  intros S. revert i j. induction S as [|z l S IH F]; intros i j H; [simpl in H; lia|].
  destruct j as [|j]; [lia|]. simpl in H. destruct i as [|i]; cbn [nth].
  - rewrite Forall_forall in F. apply F. apply nth_In. lia.
  - apply IH. lia.
Qed.

Lemma argmax_heaviest G ys j i c : length G = length ys ->
  np_argmax (map (fun c => dot (col G j) (map (fun y => if (y =? c)%Z then 1%R else 0%R) ys)) (unique ys)) = Ok i ->
  nth_error (unique ys) i = Some c -> heaviest G ys j c.
Proof.
  intros HG E N. apply np_argmax_spec in E as (L & M & F). rewrite map_length in *.
  assert (V : forall k, k < length (unique ys) ->
    nth k (map (fun c => dot (col G j) (map (fun y => if (y =? c)%Z then 1%R else 0%R) ys)) (unique ys)) 0%R
    = mass_of G ys (nth k (unique ys) 0%Z) j).
  { intros k Hk. rewrite (nth_indep _ 0%R (mass_of G ys 0%Z j)) by now rewrite map_length.
    erewrite map_ext; [apply (map_nth (fun c => mass_of G ys c j))|]. intros a. now apply mass_dot. }
  assert (Ec : nth i (unique ys) 0%Z = c) by now apply nth_error_nth.
  assert (Hin : forall c', In c' ys -> exists k, k < length (unique ys) /\ nth k (unique ys) 0%Z = c').
  { intros c' H. apply In_nth. now apply (proj2 (unique_In _ _)). }
  repeat split.
  - apply (proj1 (unique_In _ _)). eapply nth_error_In; eauto.
  - intros c' H. destruct (Hin c' H) as (k & Hk & <-). specialize (M k Hk). rewrite !V in M by auto. now rewrite Ec in M.
  - intros c' H E. destruct (Hin c' H) as (k & Hk & <-).
    destruct (Nat.lt_ge_cases k i) as [Hki|Hki].
    + specialize (F k Hki). rewrite !V in F by (auto; lia). rewrite Ec in F. lra.
    + destruct (Nat.eq_dec k i) as [->|Hne]; [rewrite Ec; lia|].
      rewrite <- Ec. apply Z.lt_le_incl, sorted_nth; [apply unique_sorted|lia].
Qed.

Lemma mapM_total {A B} (f : A -> res B) l : (forall x, In x l -> exists y, f x = Ok y) -> exists ys, mapM f l = Ok ys.
Proof.
  induction l as [|x l IH]; intros H; [now exists []|]. destruct (H x (or_introl eq_refl)) as [y Hy].
  destruct IH as [ys E]; [intros z Hz; apply H; now right|]. exists (y :: ys). cbn [mapM]. rewrite Hy. cbn [bind]. now rewrite E.
Qed.

Lemma mapM_nth {A B} (f : A -> res B) l ys j d d' : mapM f l = Ok ys -> j < length l -> f (nth j l d) = Ok (nth j ys d').
Proof.
  revert ys j. induction l as [|x l IH]; intros ys j E Hj; [simpl in Hj; lia|].
  cbn [mapM] in E. destruct (f x) eqn:Ex; [|discriminate]. cbn [bind] in E. destruct (mapM f l) eqn:El; [|discriminate].
  cbn [bind] in E. injection E as <-. destruct j as [|j]; [exact Ex|]. cbn [nth]. apply IH; auto. simpl in Hj. lia.
Qed.

Lemma nth_map_seq {A} (f : nat -> A) n j d : j < n -> nth j (map f (seq 0 n)) d = f j.
Proof. intros H. rewrite (nth_indep _ d (f 0)) by now rewrite map_length, seq_length. rewrite map_nth, seq_nth by auto. reflexivity. Qed.

Lemma moved_dot G ys j : length G = length ys -> dot ys (col G j) = vsum (map (fun p => fst p * nth j (snd p) 0)%R (combine ys G)).
Proof.
  unfold col. revert G. induction ys as [|y ys IH]; intros [|r G] E; try discriminate; [reflexivity|].
  cbn [map combine fst snd vsum]. rewrite dot_cons, IH by (now injection E). reflexivity.
Qed.

Lemma combine_seq_nth (l : list R) : forall k, combine (seq k (length l)) l = map (fun j => (j, nth (j - k) l 0%R)) (seq k (length l)).
Proof.
  induction l as [|x l IH]; intros k; [reflexivity|]. cbn [length seq combine map]. rewrite Nat.sub_diag. cbn [nth]. f_equal.
  rewrite IH. apply map_ext_in. intros j Hj. apply in_seq in Hj. f_equal. now replace (j - k) with (S (j - S k)) by lia.
Qed.

Lemma transported_moved ys T b : length T = length ys -> transported ys T b = map (moved_label T ys b) (seq 0 (length b)).
Proof.
  intros HT. unfold transported. rewrite combine_seq_nth, map_map. apply map_ext. intros j. cbn [fst snd].
  unfold moved_label. rewrite moved_dot by auto. now rewrite Nat.sub_0_r.
Qed.

(** A barycentre lies between the labels. *)
Lemma moved_bounds G ys b j lo hi : moves_onto G (length ys) b -> j < length b -> (0 < nth j b 0)%R ->
  Forall (fun y => lo <= y <= hi)%R ys -> (lo <= moved_label G ys b j <= hi)%R.
Proof.
  intros (HL & HP & HC) Hj Hb HY. unfold moved_label. specialize (HC j Hj).
  assert (B : (lo * vsum (map (fun r => nth j r 0%R) G) <= vsum (map (fun p => fst p * nth j (snd p) 0) (combine ys G))
               <= hi * vsum (map (fun r => nth j r 0%R) G))%R).
  { clear HC. revert G HL HP. induction ys as [|y ys IH]; intros [|r G] HL HP; try discriminate; [simpl; lra|].
    apply Forall_cons_iff in HP as [Hr HP]. apply Forall_cons_iff in HY as [Hy HY]. injection HL as HL.
    specialize (IH HY G HL HP). cbn [map combine fst snd vsum].
    assert (0 <= nth j r 0)%R.
    { destruct (Nat.lt_ge_cases j (length r)); [|rewrite nth_overflow by auto; lra].
      apply (proj1 (Forall_nth_R _ _) Hr). auto. }
    assert (lo * nth j r 0 <= y * nth j r 0 <= hi * nth j r 0)%R; [|lra]. split; apply Rmult_le_compat_r; lra. }
  rewrite HC in B. split.
  - apply (Rmult_le_reg_r (nth j b 0%R)); auto. unfold Rdiv. rewrite Rmult_assoc, Rinv_l by lra. lra.
  - apply (Rmult_le_reg_r (nth j b 0%R)); auto. unfold Rdiv. rewrite Rmult_assoc, Rinv_l by lra. lra.
Qed.

(** ** The loop *)
Inductive trace {S} (step : nat -> S -> res (S * R * R)) : nat -> S -> list R -> list R -> S -> Prop :=
| trace_nil i s : trace step i s [] [] s
| trace_cons i s s1 x y lx ly s' : step i s = Ok (s1, x, y) -> trace step (Datatypes.S i) s1 lx ly s' ->
    trace step i s (x :: lx) (y :: ly) s'.

Definition last_opt (P : list R) : option R := match P with [] => None | _ => Some (nth (length P - 1) P 0%R) end.

Lemma small_settled tol P x rest : small_change tol x (last_opt P) = true <-> settled tol (P ++ x :: rest) (length P).
Proof.
  unfold settled. rewrite app_nth2 by lia. rewrite Nat.sub_diag. cbn [nth].
  destruct P as [|p P]; [simpl; split; [discriminate|lia]|].
  unfold last_opt, small_change. rewrite (app_nth1 (p :: P)) by (simpl; lia). rewrite Rltb_iff.
  split; [intros H; split; [simpl; lia|exact H]|now intros [_ H]].
Qed.

Lemma small_not_settled tol P x rest : small_change tol x (last_opt P) = false -> ~ settled tol (P ++ x :: rest) (length P).
Proof. intros H K. apply small_settled in K. congruence. Qed.

Lemma last_opt_snoc P x : last_opt (P ++ [x]) = Some x.
Proof.
  unfold last_opt. destruct (P ++ [x]) eqn:E; [now destruct P|]. rewrite <- E. f_equal.
  rewrite app_length. simpl. rewrite app_nth2 by lia. now replace (length P + 1 - 1 - length P) with 0 by lia.
Qed.

Lemma loop_rule {S} (step : nat -> S -> res (S * R * R)) tol n k : forall i s P Q s' lot llab w,
  k + i = n -> 0 < k -> length P = i -> length Q = i ->
  jdot_loop step tol n k i s (last_opt P) (last_opt Q) = Ok (s', lot, llab, w) ->
  trace step i s lot llab s' /\ length llab = length lot /\ 1 <= length lot <= k /\
  (forall j, i <= j -> Datatypes.S j < i + length lot -> ~ settled tol (P ++ lot) j /\ ~ settled tol (Q ++ llab) j) /\
  (length lot < k -> settled tol (P ++ lot) (i + length lot - 1) \/ settled tol (Q ++ llab) (i + length lot - 1)) /\
  (w = true <-> length lot = k /\ ~ settled tol (P ++ lot) (n - 1) /\ ~ settled tol (Q ++ llab) (n - 1)).
Proof.
  induction k as [|k IH]; intros i s P Q s' lot llab w Hn Hk HP HQ E; [lia|].
  cbn [jdot_loop] in E. destruct (step i s) as [[[s1 x] y]|] eqn:Es; [|discriminate]. cbn [bind] in E.
  destruct (small_change tol x (last_opt P)) eqn:Ex.
  { injection E as <- <- <- <-. assert (A := proj1 (small_settled tol P x []) Ex). rewrite HP in A.
    split; [econstructor; [exact Es|constructor]|]. cbn [length].
    split; [lia|]. split; [lia|]. split; [intros; lia|]. split; [|split].
    - intros _. left. now replace (i + 1 - 1) with i by lia.
    - discriminate.
    - intros (H1 & H2 & _). replace (n - 1) with i in H2 by lia. tauto. }
  destruct (small_change tol y (last_opt Q)) eqn:Ey.
  { injection E as <- <- <- <-. assert (A := proj1 (small_settled tol Q y []) Ey). rewrite HQ in A.
    split; [econstructor; [exact Es|constructor]|]. cbn [length].
    split; [lia|]. split; [lia|]. split; [intros; lia|]. split; [|split].
    - intros _. right. now replace (i + 1 - 1) with i by lia.
    - discriminate.
    - intros (H1 & _ & H2). replace (n - 1) with i in H2 by lia. tauto. }
  assert (Nx := fun r => small_not_settled tol P x r Ex). assert (Ny := fun r => small_not_settled tol Q y r Ey).
  rewrite HP in Nx. rewrite HQ in Ny.
  destruct (Nat.eqb_spec i (n - 1)) as [Hi|Hi].
  { injection E as <- <- <- <-. split; [econstructor; [exact Es|constructor]|]. cbn [length].
    split; [lia|]. split; [lia|]. split; [intros; lia|]. split; [lia|]. rewrite <- Hi.
    split; auto. intros _. split; [lia|]. split; [apply Nx|apply Ny]. }
  destruct (jdot_loop step tol n k (Datatypes.S i) s1 (Some x) (Some y)) as [[[[s2 a] b] w']|] eqn:El; [|discriminate].
  cbn [bind] in E. injection E as <- <- <- <-.
  rewrite <- (last_opt_snoc P x), <- (last_opt_snoc Q y) in El.
  apply IH in El; [|lia|lia|rewrite app_length; simpl; lia|rewrite app_length; simpl; lia].
  destruct El as (T & L1 & L2 & F & G & W). rewrite <- !app_assoc in *. cbn [app] in *.
  split; [econstructor; eauto|]. cbn [length]. split; [lia|]. split; [lia|]. split; [|split].
  - intros j H1 H2. destruct (Nat.eq_dec j i) as [->|]; [split; [apply Nx|apply Ny]|]. apply F; lia.
  - intros H.
    replace (i + Datatypes.S (length a) - 1) with (Datatypes.S i + length a - 1) by lia. apply G. lia.
  - rewrite W. split; intros (H1 & H2); (split; [lia|exact H2]).
Qed.

Lemma loop_stopping {S} (step : nat -> S -> res (S * R * R)) tol n s s' lot llab w : 0 < n ->
  jdot_loop step tol n n 0 s None None = Ok (s', lot, llab, w) ->
  trace step 0 s lot llab s' /\ stopping_rule tol n lot llab w.
Proof.
  intros Hn E. apply (loop_rule step tol n n 0 s [] []) in E; auto; try lia.
  destruct E as (T & L1 & L2 & F & G & W). cbn [app] in *. split; auto.
  split; [auto|]. split; [lia|]. split; [|split; [exact G|exact W]]. intros i H. apply F; simpl; lia.
Qed.

Lemma loop_total {S} (step : nat -> S -> res (S * R * R)) tol n (I : nat -> S -> Prop) :
  (forall i s, I i s -> exists s' x y, step i s = Ok (s', x, y) /\ I (Datatypes.S i) s') ->
  forall k i s p q, I i s -> exists r, jdot_loop step tol n k i s p q = Ok r.
Proof.
  intros H. induction k as [|k IH]; intros i s p q Hs; [eexists; reflexivity|]. cbn [jdot_loop].
  destruct (H i s Hs) as (s' & x & y & E & Hs'). rewrite E. cbn [bind].
  destruct (small_change tol x p); [eexists; reflexivity|]. destruct (small_change tol y q); [eexists; reflexivity|].
  destruct (i =? n - 1); [eexists; reflexivity|]. destruct (IH (Datatypes.S i) s' (Some x) (Some y) Hs') as [[[[a b] c] d] E'].
  rewrite E'. cbn [bind]. eexists; reflexivity.
Qed.

(** Two steps that agree on the reachable states give the same run. *)
Lemma loop_ext {S} (step step' : nat -> S -> res (S * R * R)) tol n :
  (forall i s, step i s = step' i s) -> forall k i s p q, jdot_loop step tol n k i s p q = jdot_loop step' tol n k i s p q.
Proof.
  intros H. induction k as [|k IH]; intros i s p q; [reflexivity|]. cbn [jdot_loop]. rewrite H.
  destruct (step' i s) as [[[s' x] y]|]; [|reflexivity]. cbn [bind]. now rewrite IH.
Qed.
