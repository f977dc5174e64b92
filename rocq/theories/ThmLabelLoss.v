(** C54: the label loss JDOT classification reports. C70: which shapes the DeepJDOT loss accepts. C51: MaNo's aggregate is a power mean. *)
From Coq Require Import List ZArith Bool Arith Lia Reals Lra.
From Verif Require Import Np NpFacts Labels Spec UtilsModel SelectModel RVec RVecFacts OTModel OTSpec OTProofs OTProofs2 OTProofs3 ThmOT MapModel RMat ThmJdot LossModel LossSpec LossProofs MetricsModel MetricsSpec MetricsProofs MetricsProofs2  ThmMetrics.
Import ListNotations.
Local Open Scope nat_scope.
Local Open Scope list_scope.

(** Sum over the fitting data of weight times the loss of the prediction [P i] for the label [yh i] (column [r i]): minus the
    log-probability of the label, or the one-against-all hinge loss. *)
Theorem C54_label_loss : forall metric ys yh wh p P l r,
  pred_matrix metric p = Ok P -> Forall (fun f => length f = length (unique ys)) P ->
  (forall i, i < length yh -> column_of ys (nth i yh 0%Z) (r i)) ->
  tgt_loss metric (map (onehot (unique ys)) yh) wh p = Ok l ->
  length P = length yh /\ length wh = length yh /\
  l = msum (length yh) (fun i => nth i wh 0 * match metric with MHinge => hinge_cost (r i) (nth i P []) | _ => - nth (r i) (nth i P []) 0 end)%R.
Proof.
  intros metric ys yh wh p P l r EP F HR E. unfold tgt_loss in E. rewrite EP in E. cbn [bind] in E.
  destruct (np_map2 _ _ P) as [d|] eqn:Ed; [|discriminate]. cbn [bind] in E.
  apply np_map2_ok in Ed as [L1 ->]. rewrite map_length in L1. apply np_dot_ok in E as [L2 ->].
  assert (LM : length (map2 (row_loss metric) (map (onehot (unique ys)) yh) P) = length yh) by (rewrite map2_length, map_length; lia).
  split; [auto|]. split; [congruence|]. rewrite dot_at by exact L2. rewrite LM.
  apply msum_ext. intros i Hi. rewrite Rmult_comm. f_equal.
  assert (E : nth i (map2 (row_loss metric) (map (onehot (unique ys)) yh) P) 0%R = row_loss metric (onehot (unique ys) (nth i yh 0%Z)) (nth i P [])).
  { clear - L1 Hi. revert P i L1 Hi. induction yh as [|y yh IH]; intros [|f P] i L Hi; try discriminate; [cbn in Hi; lia|].
    destruct i; [reflexivity|]. cbn. apply IH; cbn in *; lia. }
  rewrite E. assert (L : length (nth i P []) = length (unique ys)) by (rewrite Forall_forall in F; apply F, nth_In; lia).
  specialize (HR i Hi). destruct metric.
  - unfold row_loss. f_equal. apply onehot_dot; [apply unique_NoDup|exact HR|exact L].
  - apply hinge_row; [apply unique_NoDup|exact HR|exact L].
  - unfold row_loss. f_equal. apply onehot_dot; [apply unique_NoDup|exact HR|exact L].
Qed.

(** Two samples of classes 4 and 2 with decisions (-1, 3) and (-1, 3) and weights 1 and 2: no loss for the first, 2 + 4 for the second. *)
Example C54_label_loss_ex :
  tgt_loss MHinge (map (onehot (unique [4; 2]%Z)) [4; 2]%Z) [1; 2]%R (PDecision [[-1; 3]; [-1; 3]]%R) = Ok 12%R.
Proof.
  unfold tgt_loss. cbn. unfold np_map2, np_dot. cbn. f_equal. unfold row_loss, dot. cbn.
  repeat match goal with |- context [Rmax 0 ?x] =>
    first [rewrite (Rmax_right 0 x) by lra | rewrite (Rmax_left 0 x) by lra] end. lra.
Qed.

(** C70: a loss is reported only if there are as many source features as source labels and as many target features as target
    predictions. *)
Theorem C70_shapes : forall Lab crit emd2 (y_s : list Lab) y_pred_t fs ft reg_dist reg_cl sw tw l,
  deepjdot_loss Lab crit emd2 y_s y_pred_t fs ft reg_dist reg_cl sw tw = Ok l ->
  length fs = length y_s /\ length y_s = length y_pred_t /\ (fs <> [] -> length ft = length y_pred_t).
Proof.
  intros Lab crit emd2 y_s yp fs ft rd rc sw tw l E. unfold deepjdot_loss, label_cost in E.
  destruct (Nat.eqb_spec (length y_s) (length yp)) as [L|L]; [|discriminate].
  destruct (mapM _ y_s) as [c|] eqn:Ec; [|discriminate]. cbn [bind] in E. destruct (mapM_nth _ _ _ Ec) as [Lc Nc].
  destruct (_ && _)%bool eqn:C; [|discriminate]. apply andb_prop in C as [C1 C2]. apply Nat.eqb_eq in C1.
  unfold cdist in C1. rewrite !map_length in C1. split; [congruence|]. split; [auto|]. intros NE.
  destruct fs as [|f fs]; [contradiction|]. destruct y_s as [|y ys]; [cbn in C1; cbn in Lc; lia|].
  destruct (Nc 0 y eq_refl) as (row & Er & E0). destruct c as [|r0 c]; [discriminate|]. injection E0 as ->.
  cbn in C2. apply andb_prop in C2 as [C2 _]. apply Nat.eqb_eq in C2. rewrite !map_length in C2.
  destruct (mapM_nth _ _ _ Er) as [Q _]. congruence.
Qed.
Example C70_shapes_ex :
  deepjdot_loss nat cross_entropy (fun _ _ M => Ok 0%R) [0; 1] [[0; 0]; [0; 0]]%R [[0]]%R [[5]; [3]]%R 2 1 None None = Err RuntimeError /\
  exists l, deepjdot_loss nat cross_entropy (fun _ _ M => Ok 0%R) [0; 1] [[0; 0]; [0; 0]]%R [[0]; [1]]%R [[5]; [3]]%R 2 1 None None = Ok l.
Proof. split; [reflexivity|]. eexists. reflexivity. Qed.

(** C51: the MaNo value is the p-power mean of all the probabilities: the non-negative number whose p-th power is the average of
    theirs. *)
Definition power (x p : R) : R := if Req_EM_T x 0 then 0%R else Rpower x p.
Theorem C51_power_mean : forall p P, (0 < p)%R -> row_stochastic P ->
  (0 <= mano_aggregate p P)%R /\
  power (mano_aggregate p P) p = (vsum (map (fun t => power t p) (concat P)) / INR (length (concat P)))%R.
Proof.
  intros p P Hp St. assert (E : forall x q, np_pow x q = power x q).
  { intros x q. unfold np_pow, power, Reqb. now destruct (Req_EM_T x 0). }
  split; [exact (proj1 (aggregate_01 p P Hp St))|]. unfold mano_aggregate.
  rewrite (map_ext _ (fun t => power t p)) by (intros; apply E). rewrite E. unfold mean. rewrite map_length.
  set (m := (vsum (map (fun t => power t p) (concat P)) / INR (length (concat P)))%R).
  unfold power at 2. destruct (Req_EM_T m 0) as [Z|NZ].
  - unfold power. destruct (Req_EM_T 0 0); [auto|lra].
  - unfold power. destruct (Req_EM_T (Rpower m (1 / p)) 0) as [Z|_]; [pose proof (exp_pos (1 / p * ln m)); unfold Rpower in Z; lra|].
    rewrite Rpower_mult. replace (1 / p * p)%R with 1%R by (field; lra). apply Rpower_1.
    assert (F : Forall (fun t => 0 <= t <= 1)%R (map (fun t => np_pow t p) (concat P))).
    { apply Forall_map. apply Forall_concat. unfold row_stochastic in St. eapply Forall_impl; [|exact St]. intros r D.
      pose proof (distribution_le1 r D) as H1. destruct D as [H0 _]. rewrite Forall_forall in *. intros t Ht. apply np_pow_01; auto. }
    rewrite (map_ext _ (fun t => power t p)) in F by (intros; apply E).
    assert (H0 : (0 <= m)%R); [|lra]. unfold m. destruct (concat P) as [|x l]; [cbn; lra|].
    pose proof (mean_bounds (map (fun t => power t p) (x :: l)) 0 1) as B. unfold mean in B. rewrite map_length in B. apply B; auto. easy.
Qed.
Example C51_power_mean_ex : row_stochastic [[3 / 5; 2 / 5]; [1; 0]]%R /\ power (3 / 5) 1 = (3 / 5)%R.
Proof.
  split; [repeat constructor; cbn; lra|]. unfold power. destruct (Req_EM_T (3 / 5) 0); [lra|]. apply Rpower_1. lra.
Qed.
