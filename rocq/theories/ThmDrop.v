(** C165: training and evaluation of the example networks agree on average; C65: the start of the memory bank of SPA. *)
From Coq Require Import String List ZArith Bool Arith Lia Reals Lra.
From Verif Require Import Np NpFacts RVec RVecFacts LossModel LossProofs NetModel NetSpec ThmNet ModuleModel ThmModule CallModel CallSpec CallProofs ThmCall.
Import ListNotations.
Local Open Scope nat_scope.
Local Open Scope list_scope.

(** The masks of a batch of [n] rows with [k] entries. *)
Definition masks_for (n k : nat) (m : list (list bool)) : Prop := length m = n /\ forall r, In r m -> length r = k.
(** What one mask keeps the other drops. *)
Definition opposite (m : list (list bool)) : list (list bool) := map (map negb) m.
(** Entry [o] of row [i]. *)
Definition out_at (Y : list (list R)) (i o : nat) : R := nth o (nth i Y []) 0%R.

Lemma drop_nth (m : list bool) : forall (h : list R) i, length m = length h ->
  (nth i (map2 (fun (k : bool) x => if k then x / (1 - 1 / 2) else 0) m h) 0 + nth i (map2 (fun (k : bool) x => if k then x / (1 - 1 / 2) else 0) (map negb m) h) 0 = 2 * nth i h 0)%R.
Proof.
  induction m as [|b m IH]; intros [|x h] i L; try discriminate.
  - destruct i; cbn; lra.
  - cbn [map map2]. destruct i as [|i]; cbn [nth].
    + destruct b; cbn [negb]; field.
    + apply IH. now injection L.
Qed.
Lemma map2_len {A B C} (f : A -> B -> C) : forall a b, length a = length b -> length (map2 f a b) = length b.
Proof. induction a as [|x a IH]; intros [|y b] L; try discriminate; cbn; auto. Qed.
Lemma sum_pair (w f g h : nat -> R) l : (forall i, f i + g i = 2 * h i)%R ->
  (vsum (map (fun i => w i * f i) l) + vsum (map (fun i => w i * g i) l) = 2 * vsum (map (fun i => w i * h i) l))%R.
Proof.
  intros H. induction l as [|a l IH]; cbn [map vsum]; [lra|]. specialize (H a). replace (f a) with (2 * h a - g a)%R by lra. lra.
Qed.

(** A linear layer after Dropout(1/2): the outputs under a mask and under the opposite mask average to the output without dropout. *)
Lemma layer_average l H m Y : masks_for (length H) (l_in l) m -> mapM (linear_fwd l) H = Ok Y ->
  exists Y1 Y2, mapM (linear_fwd l) (dropout (1 / 2) (Some m) H) = Ok Y1 /\ mapM (linear_fwd l) (dropout (1 / 2) (Some (opposite m)) H) = Ok Y2 /\
    length Y1 = length Y /\ length Y2 = length Y /\ forall i o, (out_at Y1 i o + out_at Y2 i o = 2 * out_at Y i o)%R.
Proof.
  intros [L1 L2]. revert m L1 L2 Y. unfold dropout. induction H as [|h H IH]; intros [|r m] L1 L2 Y E; try discriminate.
  - cbn in E. injection E as <-. exists [], []. repeat split. intros i o. unfold out_at. destruct i, o; cbn; lra.
  - cbn [mapM] in E. apply bind_ok in E as (y & Ey & E). apply bind_ok in E as (Y' & EY & E). injection E as <-.
    destruct (IH m) with (Y := Y') as (Y1 & Y2 & E1 & E2 & LY1 & LY2 & EE); auto; [intros q Hq; apply L2; now right|].
    assert (Lr : length r = l_in l) by (apply L2; now left). pose proof (linear_length _ _ _ Ey) as [Lh Ly].
    set (g := fun (k : bool) x => if k then (x / (1 - 1 / 2))%R else 0%R) in *.
    destruct (linear_defined l (map2 g r h)) as [u Eu]; [rewrite map2_len; lia|].
    destruct (linear_defined l (map2 g (map negb r) h)) as [v Ev]; [rewrite map2_len; rewrite ?map_length; lia|].
    exists (u :: Y1), (v :: Y2). cbn [map2 map opposite mapM]. rewrite Eu. cbn [bind]. rewrite E1. cbn [bind]. fold (opposite m). rewrite Ev. cbn [bind]. rewrite E2. cbn [bind].
    split; [reflexivity|]. split; [reflexivity|]. split; [cbn; lia|]. split; [cbn; lia|]. intros i o.
    destruct i as [|i]; [|exact (EE i o)]. unfold out_at. cbn [nth].
    pose proof (linear_length _ _ _ Eu) as [_ Lu]. pose proof (linear_length _ _ _ Ev) as [_ Lv].
    destruct (Nat.lt_ge_cases o (l_out l)) as [Ho|Ho]; [|rewrite !nth_overflow by lia; lra].
    unfold linear_fwd in Ey, Eu, Ev. destruct (length h =? l_in l); [|discriminate]. destruct (length (map2 g r h) =? l_in l); [|discriminate].
    destruct (length (map2 g (map negb r) h) =? l_in l); [|discriminate]. injection Ey as <-. injection Eu as <-. injection Ev as <-.
    assert (N : forall (F : nat -> R), nth o (map F (seq 0 (l_out l))) 0%R = F o).
    { intros F. rewrite (nth_indep _ 0%R (F 0)) by (rewrite map_length, seq_length; exact Ho). rewrite map_nth. now rewrite seq_nth. }
    rewrite !N. pose proof (sum_pair (l_w l o) (fun i => nth i (map2 g r h) 0%R) (fun i => nth i (map2 g (map negb r) h) 0%R) (fun i => nth i h 0%R) (seq 0 (l_in l)) (fun i => drop_nth r h i ltac:(lia))) as SP.
    lra.
Qed.

(** ToyModule2D in training mode, without the softmax: the outputs under a mask and its opposite average to the evaluation output. *)
Theorem C165_toy2d_training_average : forall n_classes num_features nonlin w0 w1 b0 b1 X m,
  (forall x, In x X -> length x = 2) -> masks_for (length X) num_features m ->
  let net := toy2d_new n_classes num_features nonlin false w0 w1 b0 b1 in
  exists Y Y1 Y2, toy2d_fwd net None X = Ok Y /\ toy2d_fwd net (Some m) X = Ok Y1 /\ toy2d_fwd net (Some (opposite m)) X = Ok Y2 /\
    length Y1 = length X /\ length Y2 = length X /\ forall i o, (out_at Y1 i o + out_at Y2 i o = 2 * out_at Y i o)%R.
Proof.
  intros k nf nl w0 w1 b0 b1 X m HX HM net.
  destruct (C165_toy2d_shape k nf nl false w0 w1 b0 b1 X) as [S _]. destruct (S HX) as (Y & EY & LY & _). fold net in EY.
  pose proof EY as E. unfold toy2d_fwd in E. apply bind_ok in E as (h & Eh & E). cbv zeta in E. apply bind_ok in E as (o & Eo & E). cbn [t_proba net toy2d_new] in E. injection E as <-.
  cbn [dropout] in Eo. assert (Lh : length h = length X). { apply mapM_ok_iff in Eh. clear -Eh. induction Eh; cbn; congruence. }
  destruct (layer_average (t_dense1 net) (map (map (t_nonlin net)) h) m o) as (Y1 & Y2 & E1 & E2 & L1 & L2 & EE); auto.
  { rewrite map_length, Lh. exact HM. }
  exists o, Y1, Y2. split; [exact EY|]. unfold toy2d_fwd. rewrite Eh. cbn [bind]. cbv zeta. rewrite E1, E2. cbn [bind t_proba net toy2d_new].
  split; [reflexivity|]. split; [reflexivity|]. split; [lia|]. split; [lia|exact EE].
Qed.

(** MNISTtoUSPSNet: the same for its second dropout, under any first mask. *)
Theorem C165_mnist_training_average : forall n mask1 X m Y, masks_for (length Y) 128 m -> mnet_fwd n mask1 None X = Ok Y ->
  exists Y1 Y2, mnet_fwd n mask1 (Some m) X = Ok Y1 /\ mnet_fwd n mask1 (Some (opposite m)) X = Ok Y2 /\
    length Y1 = length Y /\ length Y2 = length Y /\ forall i o, (out_at Y1 i o + out_at Y2 i o = 2 * out_at Y i o)%R.
Proof.
  intros n mask1 X m Y HM E. unfold mnet_fwd in *. destruct (mapM (mnet_conv n) X) as [f|]; [|discriminate]. cbn [bind] in *.
  destruct (mapM (linear_fwd (m_fc1 n)) _) as [h|]; [|discriminate]. cbn [bind] in *. cbn [dropout] in E.
  assert (Lh : length h = length Y). { apply mapM_ok_iff in E. rewrite <- (map_length (map relu)). clear -E. induction E; cbn; congruence. }
  apply layer_average; auto. rewrite map_length, Lh. exact HM.
Qed.
(** The first dropout keeps three quarters: every entry that is kept is multiplied by 4/3, and the others are replaced by 0. *)
Theorem C165_mnist_first_dropout : forall n mask2 X m f, mapM (mnet_conv n) X = Ok f ->
  mnet_fwd n (Some m) mask2 X =
  (h <- mapM (linear_fwd (m_fc1 n)) (map2 (map2 (fun (kept : bool) x => if kept then 4 / 3 * x else 0)%R) m (map flatten3 f)) ;;
   mapM (linear_fwd (m_fc2 n)) (dropout (1 / 2) mask2 (map (map relu) h))).
Proof.
  intros n mask2 X m f E. unfold mnet_fwd. rewrite E. cbn [bind].
  assert (Q : forall r s, map2 (fun (k : bool) x => if k then (x / (1 - 1 / 4))%R else 0%R) r s = map2 (fun (kept : bool) x => if kept then (4 / 3 * x)%R else 0%R) r s).
  { intros r. induction r as [|b r IH]; intros [|x s]; auto. cbn [map2]. rewrite IH. f_equal. destruct b; [field|reflexivity]. }
  assert (Q2 : forall a b, map2 (map2 (fun (k : bool) x => if k then (x / (1 - 1 / 4))%R else 0%R)) a b = map2 (map2 (fun (kept : bool) x => if kept then (4 / 3 * x)%R else 0%R)) a b).
  { intros a. induction a as [|r a IH]; intros [|s b]; auto. cbn [map2]. now rewrite Q, IH. }
  assert (D : dropout (1 / 4) (Some m) (map flatten3 f) = map2 (map2 (fun (kept : bool) x => if kept then (4 / 3 * x)%R else 0%R)) m (map flatten3 f)) by exact (Q2 m _).
  now rewrite D.
Qed.
Example C165_average_ex : masks_for 2 1 [[true]; [false]] /\ opposite [[true]; [false]] = [[false]; [true]].
Proof. split; [|reflexivity]. split; [reflexivity|]. intros r [<-|[<-|[]]]; reflexivity. Qed.

(** C65: at the start of a fit every target sample has equal probability for all classes and a feature of norm one. *)
Theorem C65_start : forall draw n_classes, 0 < n_classes -> (forall x, In x draw -> norm2 x <> 0%R) ->
  let '(features, outputs) := bank_init draw n_classes in
  length features = length draw /\ length outputs = length draw /\
  (forall p, In p outputs -> length p = n_classes /\ (forall a, In a p -> a = 1 / INR n_classes)%R /\ vsum p = 1%R) /\
  (forall x, In x features -> norm2 x = 1%R).
Proof.
  intros draw k Hk Hd. unfold bank_init. rewrite !map_length. split; [reflexivity|]. split; [reflexivity|]. split.
  - intros p Hp. apply in_map_iff in Hp as (x & <- & _). split; [apply repeat_length|]. split; [intros a Ha; now apply repeat_spec in Ha|].
    assert (V : forall n a, vsum (repeat a n) = (INR n * a)%R).
    { induction n as [|n IH]; intros a; [cbn; lra|]. cbn [repeat vsum]. rewrite IH, S_INR. lra. }
    rewrite V. field. apply not_0_INR. lia.
  - intros x Hx. apply in_map_iff in Hx as (r & <- & Hr). specialize (Hd r Hr). unfold normalise.
    apply norm2_eq; [lra|]. assert (P : (norm2 r * norm2 r = dot r r)%R) by apply norm_sq.
    assert (DD : forall u c, dot (map (fun a => a / c)%R u) (map (fun a => a / c)%R u) = (dot u u / (c * c))%R \/ c = 0%R).
    { intros u c. destruct (Req_EM_T c 0) as [Z|NZ]; [now right|left]. induction u as [|a u IH]; [cbn; field; auto|].
      change (a / c * (a / c) + dot (map (fun a => a / c) u) (map (fun a => a / c) u) = (a * a + dot u u) / (c * c))%R. rewrite IH. field. auto. }
    destruct (DD r (norm2 r)) as [E|E]; [|contradiction]. rewrite E, <- P. field. exact Hd.
Qed.
Example C65_start_ex : bank_init [[3; 4]]%R 2 = ([[3 / norm2 [3; 4]; 4 / norm2 [3; 4]]], [[1 / 2; 1 / 2]])%R /\ norm2 [3; 4]%R = 5%R.
Proof. split; [reflexivity|]. apply norm2_eq; [lra|]. cbn. ring. Qed.
