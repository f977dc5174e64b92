(** Proofs about the scorers: entropies, softmax, covariance, label encoding. *)
From Coq Require Import String List ZArith QArith Bool Arith Lia Reals Lra Psatz.
From Verif Require Import Np NpFacts Labels Spec SpecFacts UtilsModel UtilsSpec UtilsProofs UtilsProofs2 SelectModel
  RVec RVecFacts FWSpec FWProofs ReweightModel ReweightSpec ReweightProofs ReweightProofs2 MetricsModel MetricsSpec.
Import ListNotations.
Local Open Scope nat_scope.
Local Open Scope list_scope.

(** ** Entropy *)
Lemma ln_le_sub x : (0 < x)%R -> (ln x <= x - 1)%R.
Proof. intros H. pose proof (exp_ineq1_le (ln x)) as E. rewrite exp_ln in E by auto. lra. Qed.

Lemma distribution_le1 r : distribution r -> Forall (fun t => t <= 1)%R r.
Proof.
  intros [H S]. assert (G : forall l, Forall (fun t => 0 <= t)%R l -> Forall (fun t => t <= vsum l)%R l).
  { induction 1 as [|t l Ht Hl IH]; constructor; simpl.
    - pose proof (vsum_nonneg l Hl). lra.
    - eapply Forall_impl; [|exact IH]. simpl. intros; lra. }
  rewrite <- S. now apply G.
Qed.

Lemma entropy_bounds r : distribution r -> (0 <= entropy r <= ln (INR (length r)))%R.
Proof.
  intros D. pose proof (distribution_le1 r D) as H1. destruct D as [H S].
  assert (Hn : r <> []) by (intros ->; simpl in S; lra).
  set (n := INR (length r)). assert (Pn : (0 < n)%R) by (apply lt_0_INR; destruct r; [easy|simpl; lia]).
  split.
  - unfold entropy. apply vsum_nonneg, Forall_map. rewrite Forall_forall in *. intros p Hp. specialize (H p Hp). specialize (H1 p Hp). simpl in *.
    destruct (Req_EM_T p 0); [lra|]. pose proof (ln_le_sub p ltac:(lra)). nra.
  - assert (G : forall l, Forall (fun t => 0 <= t)%R l ->
      (entropy l <= ln n * vsum l + INR (length l) / n - vsum l)%R).
    { induction 1 as [|p l Hp Hl IH]; [unfold entropy; simpl; lra|].
      unfold entropy in *. cbn [map vsum length]. rewrite S_INR.
      assert (E : ((if Req_EM_T p 0 then 0 else - p * ln p) <= ln n * p + 1 / n - p)%R).
      { destruct (Req_EM_T p 0) as [->|Ne].
        - pose proof (Rinv_0_lt_compat n Pn). lra.
        - assert (Pp : (0 < p)%R) by lra. assert (Ppn : (0 < n * p)%R) by nra.
          pose proof (ln_le_sub (/ (n * p)) (Rinv_0_lt_compat _ Ppn)) as Q.
          rewrite ln_Rinv, ln_mult in Q by auto. apply (Rmult_le_compat_l p) in Q; [|lra].
          replace (p * (/ (n * p) - 1))%R with (1 / n - p)%R in Q by (field; lra). lra. }
      unfold Rdiv in *. lra. }
    specialize (G r H). fold n in G. rewrite S in G. replace (n / n)%R with 1%R in G by (field; lra). lra.
Qed.

Lemma row_entropy_eq r : Forall (fun t => 0 < t)%R r -> row_entropy r = entropy r.
Proof.
  unfold row_entropy, entropy. induction 1 as [|p r Hp Hr IH]; simpl; auto. rewrite IH. destruct (Req_EM_T p 0); [lra|reflexivity].
Qed.

(** ** Softmax *)
Lemma div_sum_distribution r : Forall (fun t => 0 <= t)%R r -> vsum r <> 0%R -> distribution (div_sum r).
Proof.
  intros H Hs. split.
  - unfold div_sum. apply nonneg_div; auto. now apply vsum_nonneg.
  - unfold div_sum. rewrite vsum_map_div. field. auto.
Qed.

Lemma softmax_row_spec r : r <> [] ->
  softmax_row r = map (fun t => exp t / vsum (map exp r))%R r /\ Forall (fun t => 0 < t)%R (softmax_row r) /\ vsum (softmax_row r) = 1%R.
Proof.
  intros Hr. remember (row_max r) as m eqn:Hm.
  assert (Ps : (0 < vsum (map exp r))%R).
  { apply vsum_pos; [now destruct r|]. apply Forall_map, Forall_forall. intros; apply exp_pos. }
  assert (E : map exp (shift_max r) = map (fun t => exp t * exp (- m))%R r).
  { unfold shift_max. rewrite <- Hm, map_map. apply map_ext. intros t. rewrite <- exp_plus. reflexivity. }
  assert (Sv : vsum (map (fun t => exp t * exp (- m))%R r) = (vsum (map exp r) * exp (- m))%R).
  { clear. induction r as [|t r IH]; simpl; [lra|]. rewrite IH. lra. }
  clear Hm. assert (Es : softmax_row r = map (fun t => exp t / vsum (map exp r))%R r).
  { unfold softmax_row, div_sum. rewrite E, Sv, map_map. apply map_ext. intros t. pose proof (exp_pos (- m)). field. lra. }
  split; [auto|]. rewrite Es. split.
  - apply Forall_map, Forall_forall. intros t _. apply Rmult_lt_0_compat; [apply exp_pos|now apply Rinv_0_lt_compat].
  - rewrite <- (map_map exp (fun t => (t / vsum (map exp r))%R)). rewrite vsum_map_div. field. lra.
Qed.

Lemma positive_distribution r : Forall (fun t => 0 < t)%R r -> vsum r = 1%R -> distribution r.
Proof. intros H S. split; auto. eapply Forall_impl; [|exact H]. simpl. intros; lra. Qed.

Lemma mean_bounds l a b : l <> [] -> Forall (fun t => a <= t <= b)%R l -> (a <= mean l <= b)%R.
Proof.
  intros Hl H. unfold mean. assert (P : (0 < INR (length l))%R) by (apply lt_0_INR; destruct l; [easy|simpl; lia]).
  assert (G : (a * INR (length l) <= vsum l <= b * INR (length l))%R).
  { clear Hl P. induction H as [|t l Ht Hl IH]; [simpl; lra|]. cbn [length vsum]. rewrite S_INR. lra. }
  split.
  - apply (Rmult_le_reg_r (INR (length l))); auto. unfold Rdiv. rewrite Rmult_assoc, Rinv_l by lra. lra.
  - apply (Rmult_le_reg_r (INR (length l))); auto. unfold Rdiv. rewrite Rmult_assoc, Rinv_l by lra. lra.
Qed.

(** ** The common beginning of the scorers *)
Lemma check_xy_given n y l r f : check_X_y_domain n y (SDArr l) true f = Ok r -> r = l /\ l <> [] /\ 0 < n /\ length y = n.
Proof.
  intros H. unfold check_X_y_domain in H. destruct (Nat.eqb_spec n 0) as [|N0]; [discriminate|].
  destruct (Nat.eqb_spec (length y) 0) as [|N1]; [discriminate|]. simpl negb in H. cbn [andb] in H.
  destruct (Nat.eqb_spec n (length y)) as [N2|N2]; [|discriminate]. cbn [negb bind] in H.
  apply bind_ok in H as [m [Hm H]]. unfold check_flags in H.
  repeat match type of H with raise_if ?b _ _ = _ => destruct b; [discriminate|]; cbn [raise_if] in H end.
  injection H as <-. split; [auto|]. split; [|split; lia]. intros ->. discriminate.
Qed.

Lemma check_xy_total n y l : l <> [] -> 0 < n -> length y = n -> check_X_y_domain n y (SDArr l) true all_flags = Ok l.
Proof.
  intros Hl Hn Hy. unfold check_X_y_domain. destruct (Nat.eqb_spec n 0); [lia|]. destruct (Nat.eqb_spec (length y) 0); [lia|].
  cbn [negb andb]. destruct (Nat.eqb_spec n (length y)); [|lia]. cbn [negb bind]. rewrite extract_source_ok by auto. reflexivity.
Qed.

Lemma select_target {A} sd (X : list A) : length sd = length X ->
  np_select (map negb (map is_source sd)) X = Ok (rows_of is_target sd X).
Proof.
  intros L. rewrite np_select_ok by now rewrite !map_length. f_equal.
  rewrite (rows_of_ext is_target (fun d => negb (is_source d))) by (intros; apply is_target_negb).
  now rewrite rows_of_select, map_map.
Qed.
Lemma select_source {A} sd (X : list A) : length sd = length X ->
  np_select (map is_source sd) X = Ok (rows_of is_source sd X).
Proof. intros L. rewrite np_select_ok by now rewrite map_length. now rewrite rows_of_select. Qed.
Lemma select_len {A} m (X : list A) r : np_select m X = Ok r -> length m = length X.
Proof. unfold np_select. destruct (Nat.eqb_spec (length m) (length X)); [auto|discriminate]. Qed.

Lemma target_part_ok Row (X : list Row) y sda m Xt sdt : target_part Row X y sda = Ok (m, Xt, sdt) ->
  exists sd, check_X_y_domain (length X) y sda true all_flags = Ok sd /\ sd <> [] /\ length sd = length X /\
    m = map is_source sd /\ Xt = rows_of is_target sd X /\ sdt = rows_of is_target sd sd.
Proof.
  unfold target_part. intros H. apply bind_ok in H as [sd [Hc H]]. apply bind_ok in H as [m' [Hm H]].
  assert (Ne : sd <> []) by (intros ->; discriminate). rewrite extract_source_ok in Hm by auto. injection Hm as <-.
  apply bind_ok in H as [X' [HX H]]. pose proof (select_len _ _ _ HX) as L. rewrite !map_length in L.
  rewrite select_target in HX by auto. injection HX as <-. rewrite select_target in H by auto. cbn [bind] in H.
  injection H as <- <- <-. exists sd. auto 8.
Qed.

Lemma target_part_given Row (X : list Row) y sd : sd <> [] -> length sd = length X -> length y = length X ->
  target_part Row X y (SDArr sd) = Ok (map is_source sd, rows_of is_target sd X, rows_of is_target sd sd).
Proof.
  intros Hs L Ly. unfold target_part. rewrite check_xy_total; auto.
  2:{ rewrite <- L. destruct sd; [easy|simpl; lia]. }
  cbn [bind]. rewrite extract_source_ok by auto. cbn [bind]. rewrite !select_target by auto. reflexivity.
Qed.

(** ** Covariance *)
Lemma mean_map_mul a w : mean (map (fun t => t * a)%R w) = (mean w * a)%R.
Proof. unfold mean. rewrite map_length. replace (vsum (map (fun t => (t * a)%R) w)) with (vsum w * a)%R; [unfold Rdiv; lra|]. induction w; simpl; [lra|]. rewrite <- IHw. lra. Qed.

Lemma cov_scaled w a b : np_cov (map (fun t => t * a)%R w) (map (fun t => t * b)%R w) = (a * b * np_var w)%R.
Proof.
  unfold np_cov, np_var. rewrite map_length, !mean_map_mul. set (m := mean w).
  replace (vsum (map2 (fun x y => ((x - m * a) * (y - m * b))%R) (map (fun t => (t * a)%R) w) (map (fun t => (t * b)%R) w)))
    with (a * b * vsum (map (fun t => ((t - m) * (t - m))%R) w))%R; [unfold Rdiv; lra|].
  clearbody m. induction w as [|t w IH]; simpl; [lra|]. rewrite <- IH. lra.
Qed.

Lemma np_var_cov w : np_var w = sample_cov w w.
Proof.
  unfold np_var, sample_cov. do 2 f_equal. set (m := mean w). clearbody m. induction w; simpl; congruence.
Qed.

Lemma vsum_outer e : forall w, vsum (concat (map (fun t => map (fun x => (t * x)%R) e) w)) = (vsum w * vsum e)%R.
Proof.
  induction w as [|t w IH]; simpl; [lra|]. rewrite vsum_app, IH.
  replace (vsum (map (fun x => (t * x)%R) e)) with (t * vsum e)%R; [lra|]. clear. induction e; simpl; [lra|]. rewrite <- IHe. lra.
Qed.
Lemma length_outer e : forall w, length (concat (map (fun t => map (fun x => (t * x)%R) e) w)) = length w * length e.
Proof. induction w as [|t w IH]; simpl; auto. rewrite app_length, IH, map_length. auto. Qed.

Lemma column_outer a e' : forall w e j, (j < length e) ->
  nth j e 0%R = a -> e' = e ->
  column (map2 (fun r t => r ++ [t]) (map (fun t => map (fun x => (t * x)%R) e) w) w) j = map (fun t => (t * a)%R) w.
Proof.
  intros w e j Hj Ha _. unfold column. induction w as [|t w IH]; simpl; auto. f_equal; auto.
  rewrite app_nth1 by (rewrite map_length; auto). rewrite (nth_map0 (fun x => (t * x)%R)) by auto. now rewrite Ha.
Qed.
