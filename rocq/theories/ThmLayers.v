(** C165: what the layers of the example networks compute; and the starting point of qp_solve (C79), unweighted losses (C64) and the
    estimators built by the reweighting shorthands (C160). *)
From Coq Require Import String List ZArith Bool Arith Lia Reals Lra.
From Verif Require Import Np NpFacts RVec RVecFacts LossModel LossProofs LossProofs2 ModuleModel ThmModule FWModel ThmFW DeepModel CtorModel FactModel FactSpec.
Import ListNotations.
Local Open Scope nat_scope.
Local Open Scope list_scope.

(** ** Specification *)
(** Images: all zero, one entry equal to one, and combinations. *)
Definition zero2 (c n : nat) : img2 := mkImg2 c n (fun _ _ => 0%R).
Definition dot2 (c n i t : nat) : img2 := mkImg2 c n (fun i' t' => if (i' =? i) && (t' =? t) then 1%R else 0%R).
Definition combine2 (a : R) (x y : img2) : img2 := mkImg2 (i_c x) (i_n x) (fun c t => i_v x c t + a * i_v y c t)%R.
Definition zero3 (c h w : nat) : img3 := mkImg3 c h w (fun _ _ _ => 0%R).
Definition dot3 (c h w i r s : nat) : img3 := mkImg3 c h w (fun i' r' s' => if (i' =? i) && ((r' =? r) && (s' =? s)) then 1%R else 0%R).
Definition combine3 (a : R) (x y : img3) : img3 := mkImg3 (j_c x) (j_h x) (j_w x) (fun c r s => j_v x c r s + a * j_v y c r s)%R.

(** ** Proofs *)
Lemma vsum_flat_map {A} (f : A -> list R) l : vsum (flat_map f l) = vsum (map (fun a => vsum (f a)) l).
Proof. induction l as [|a l IH]; [reflexivity|]. cbn [flat_map map vsum]. rewrite vsum_app, IH. reflexivity. Qed.
Lemma vsum_zero {A} (f : A -> R) l : (forall a, In a l -> f a = 0%R) -> vsum (map f l) = 0%R.
Proof. induction l as [|a l IH]; intros H; [reflexivity|]. cbn [map vsum]. rewrite (H a (or_introl eq_refl)), IH; [lra|]. intros b Hb. apply H. now right. Qed.
Lemma vsum_lin {A} (f g : A -> R) a l : vsum (map (fun x => f x + a * g x)%R l) = (vsum (map f l) + a * vsum (map g l))%R.
Proof. induction l as [|x l IH]; cbn [map vsum]; [lra|]. rewrite IH. lra. Qed.
Lemma vsum_one (f : nat -> R) n i : vsum (map (fun k => if k =? i then f k else 0%R) (seq 0 n)) = if i <? n then f i else 0%R.
Proof.
  destruct (i <? n) eqn:E.
  - apply Nat.ltb_lt in E. rewrite <- (vsum_pick f n i E). f_equal. apply map_ext. intros k. now rewrite Nat.eqb_sym.
  - apply vsum_zero. intros k Hk. apply in_seq in Hk. apply Nat.ltb_ge in E. destruct (Nat.eqb_spec k i); [lia|reflexivity].
Qed.
Lemma nth_blocks {A B} (f : A -> list B) n d : (forall a, length (f a) = n) -> forall l i j (a0 : A), i < length l -> j < n -> nth (i * n + j) (flat_map f l) d = nth j (f (nth i l a0)) d.
Proof.
  intros L. induction l as [|a l IH]; intros i j a0 Hi Hj; [cbn in Hi; lia|]. cbn [flat_map]. destruct i as [|i].
  - cbn [Nat.mul Nat.add nth]. apply app_nth1. now rewrite L.
  - cbn [nth]. rewrite app_nth2 by (rewrite L; cbn; lia). rewrite L. replace (S i * n + j - n) with (i * n + j) by (cbn; lia). apply IH; [cbn in Hi; lia|auto].
Qed.

(** ** C165 *)

(** A one-dimensional convolution gives its offset on the zero image, its weights on the images with one entry, and is affine: on any
    combination of images the combination of the values. *)
Theorem C165_conv1 : forall c n o t, c_k c <= n -> 0 < c_k c -> o < c_out c -> t + c_k c <= n ->
  (exists z, conv1_fwd c (zero2 (c_in c) n) = Ok z /\ i_v z o t = c_b c o) /\
  (forall i t', i < c_in c -> exists z, conv1_fwd c (dot2 (c_in c) n i t') = Ok z /\
     i_v z o t = Rplus (if (t <=? t') && (t' <? t + c_k c) then c_w c o i (t' - t) else 0%R) (c_b c o)) /\
  (forall a x y, i_c x = c_in c -> i_n x = n -> i_c y = c_in c -> i_n y = n -> exists zx zy z,
     conv1_fwd c x = Ok zx /\ conv1_fwd c y = Ok zy /\ conv1_fwd c (combine2 a x y) = Ok z /\
     i_v z o t = (i_v zx o t + a * (i_v zy o t - c_b c o))%R).
Proof.
  intros c n o t Hn Hk Ho Ht.
  assert (G : forall x, i_c x = c_in c -> i_n x = n -> exists z, conv1_fwd c x = Ok z /\
     i_v z o t = (vsum (map (fun i => vsum (map (fun d => c_w c o i d * i_v x i (t + d))%R (seq 0 (c_k c)))) (seq 0 (c_in c))) + c_b c o)%R).
  { intros x H1 H2. unfold conv1_fwd. rewrite H1, H2, Nat.eqb_refl. rewrite (proj2 (Nat.leb_le _ _)) by auto.
    destruct (Nat.eqb_spec (c_k c) 0); [lia|]. cbn [andb negb]. eexists. split; [reflexivity|]. cbn [i_v]. now rewrite vsum_flat_map. }
  split; [|split].
  - destruct (G (zero2 (c_in c) n) eq_refl eq_refl) as (z & E & V). exists z. split; [auto|]. rewrite V, vsum_zero; [lra|]. intros i _. apply vsum_zero. intros d _. cbn. lra.
  - intros i t' Hi. destruct (G (dot2 (c_in c) n i t') eq_refl eq_refl) as (z & E & V). exists z. split; [auto|]. rewrite V. f_equal. cbn [dot2 i_v].
    rewrite (map_ext _ (fun i' => if i' =? i then (if (t <=? t') && (t' <? t + c_k c) then c_w c o i' (t' - t) else 0) else 0)%R).
    + rewrite (vsum_one (fun i' => if (t <=? t') && (t' <? t + c_k c) then c_w c o i' (t' - t) else 0)%R). now rewrite (proj2 (Nat.ltb_lt _ _)).
    + intros i'. destruct (Nat.eqb_spec i' i) as [->|N]; cbn [andb].
      * destruct (t <=? t') eqn:E1.
        -- apply Nat.leb_le in E1. rewrite (map_ext _ (fun d => if d =? (t' - t) then c_w c o i d else 0)%R).
           ++ rewrite (vsum_one (fun d => c_w c o i d)). cbn [andb]. destruct (Nat.ltb_spec (t' - t) (c_k c)), (Nat.ltb_spec t' (t + c_k c)); try lia; reflexivity.
           ++ intros d. destruct (Nat.eqb_spec (t + d) t'), (Nat.eqb_spec d (t' - t)); try lia; lra.
        -- apply Nat.leb_gt in E1. cbn [andb]. apply vsum_zero. intros d _. destruct (Nat.eqb_spec (t + d) t'); [lia|lra].
      * apply vsum_zero. intros d _. lra.
  - intros a x y X1 X2 Y1 Y2. destruct (G x X1 X2) as (zx & Ex & Vx). destruct (G y Y1 Y2) as (zy & Ey & Vy). destruct (G (combine2 a x y) X1 X2) as (z & E & V).
    exists zx, zy, z. repeat (split; [assumption|]). rewrite V, Vx, Vy. cbn [combine2 i_v].
    rewrite (map_ext _ (fun i => vsum (map (fun d => c_w c o i d * i_v x i (t + d))%R (seq 0 (c_k c))) + a * vsum (map (fun d => c_w c o i d * i_v y i (t + d))%R (seq 0 (c_k c))))%R).
    + rewrite vsum_lin. lra.
    + intros i. rewrite <- vsum_lin. f_equal. apply map_ext. intros d. lra.
Qed.

(** A two-dimensional convolution with 3 x 3 weights. *)
Theorem C165_conv3 : forall cin cout w b h wd o r s, 3 <= h -> 3 <= wd -> o < cout -> r + 3 <= h -> s + 3 <= wd ->
  (exists z, conv3_fwd cin cout w b (zero3 cin h wd) = Ok z /\ j_v z o r s = b o) /\
  (forall i r' s', i < cin -> exists z, conv3_fwd cin cout w b (dot3 cin h wd i r' s') = Ok z /\
     j_v z o r s = Rplus (if ((r <=? r') && (r' <? r + 3)) && ((s <=? s') && (s' <? s + 3)) then w o i (r' - r) (s' - s) else 0%R) (b o)) /\
  (forall a x y, j_c x = cin -> j_h x = h -> j_w x = wd -> j_c y = cin -> j_h y = h -> j_w y = wd -> exists zx zy z,
     conv3_fwd cin cout w b x = Ok zx /\ conv3_fwd cin cout w b y = Ok zy /\ conv3_fwd cin cout w b (combine3 a x y) = Ok z /\
     j_v z o r s = (j_v zx o r s + a * (j_v zy o r s - b o))%R).
Proof.
  intros cin cout w b h wd o r s Hh Hw Ho Hr Hs.
  assert (G : forall x, j_c x = cin -> j_h x = h -> j_w x = wd -> exists z, conv3_fwd cin cout w b x = Ok z /\
     j_v z o r s = (vsum (map (fun i => vsum (map (fun d => vsum (map (fun e => w o i d e * j_v x i (r + d) (s + e))%R (seq 0 3))) (seq 0 3))) (seq 0 cin)) + b o)%R).
  { intros x H1 H2 H3. unfold conv3_fwd. rewrite H1, H2, H3, Nat.eqb_refl, !(proj2 (Nat.leb_le _ _)) by auto. cbn [andb]. eexists. split; [reflexivity|]. cbn [j_v].
    rewrite vsum_flat_map. f_equal. f_equal. apply map_ext. intros i. apply vsum_flat_map. }
  split; [|split].
  - destruct (G (zero3 cin h wd) eq_refl eq_refl eq_refl) as (z & E & V). exists z. split; [auto|]. rewrite V, vsum_zero; [lra|].
    intros i _. apply vsum_zero. intros d _. apply vsum_zero. intros e _. cbn. lra.
  - intros i r' s' Hi. destruct (G (dot3 cin h wd i r' s') eq_refl eq_refl eq_refl) as (z & E & V). exists z. split; [auto|]. rewrite V. f_equal. cbn [dot3 j_v].
    assert (P : forall u u' (f : nat -> R), vsum (map (fun d => if u + d =? u' then f d else 0%R) (seq 0 3)) = if (u <=? u') && (u' <? u + 3) then f (u' - u) else 0%R).
    { intros u u' f. destruct (u <=? u') eqn:E1.
      - apply Nat.leb_le in E1. rewrite (map_ext _ (fun d => if d =? (u' - u) then f d else 0%R)).
        + rewrite (vsum_one f). cbn [andb]. destruct (Nat.ltb_spec (u' - u) 3), (Nat.ltb_spec u' (u + 3)); try lia; reflexivity.
        + intros d. destruct (Nat.eqb_spec (u + d) u'), (Nat.eqb_spec d (u' - u)); try lia; reflexivity.
      - apply Nat.leb_gt in E1. cbn [andb]. apply vsum_zero. intros d _. destruct (Nat.eqb_spec (u + d) u'); [lia|reflexivity]. }
    rewrite (map_ext _ (fun i' => if i' =? i then (if ((r <=? r') && (r' <? r + 3)) && ((s <=? s') && (s' <? s + 3)) then w o i' (r' - r) (s' - s) else 0%R) else 0%R)).
    + rewrite (vsum_one (fun i' => if ((r <=? r') && (r' <? r + 3)) && ((s <=? s') && (s' <? s + 3)) then w o i' (r' - r) (s' - s) else 0%R)). now rewrite (proj2 (Nat.ltb_lt _ _)).
    + intros i'. destruct (Nat.eqb_spec i' i) as [->|N]; cbn [andb].
      * rewrite (map_ext _ (fun d => if r + d =? r' then (if (s <=? s') && (s' <? s + 3) then w o i d (s' - s) else 0%R) else 0%R)).
        -- rewrite (P r r' (fun d => if (s <=? s') && (s' <? s + 3) then w o i d (s' - s) else 0%R)). now destruct ((r <=? r') && (r' <? r + 3)), ((s <=? s') && (s' <? s + 3)).
        -- intros d. destruct (Nat.eqb_spec (r + d) r') as [E1|E1]; cbn [andb].
           ++ rewrite <- (P s s' (fun e => w o i d e)). f_equal. apply map_ext. intros e. destruct (s + e =? s'); lra.
           ++ apply vsum_zero. intros e _. lra.
      * apply vsum_zero. intros d _. apply vsum_zero. intros e _. lra.
  - intros a x y X1 X2 X3 Y1 Y2 Y3. destruct (G x X1 X2 X3) as (zx & Ex & Vx). destruct (G y Y1 Y2 Y3) as (zy & Ey & Vy). destruct (G (combine3 a x y) X1 X2 X3) as (z & E & V).
    exists zx, zy, z. repeat (split; [assumption|]). rewrite V, Vx, Vy. cbn [combine3 j_v].
    set (S1 := fun (v : img3) i => vsum (map (fun d => vsum (map (fun e => w o i d e * j_v v i (r + d) (s + e))%R (seq 0 3))) (seq 0 3))).
    rewrite (map_ext _ (fun i => S1 x i + a * S1 y i)%R).
    + rewrite vsum_lin. fold (S1 x) (S1 y). unfold S1. lra.
    + intros i. unfold S1. rewrite <- vsum_lin. f_equal. apply map_ext. intros d. rewrite <- vsum_lin. f_equal. apply map_ext. intros e. lra.
Qed.

(** Pooling keeps the largest of every block of four entries. *)
Theorem C165_maxpool : forall x z c r s, maxpool x = Ok z ->
  (forall d e, d < 2 -> e < 2 -> (j_v x c (2 * r + d) (2 * s + e) <= j_v z c r s)%R) /\
  exists d e, d < 2 /\ e < 2 /\ j_v z c r s = j_v x c (2 * r + d) (2 * s + e).
Proof.
  intros x z c r s H. unfold maxpool in H. destruct ((2 <=? j_h x) && (2 <=? j_w x)); [|discriminate]. set (v := fun d e => j_v x c (2 * r + d) (2 * s + e)).
  assert (Z : j_v z c r s = Rmax (Rmax (v 0 0) (v 0 1)) (Rmax (v 1 0) (v 1 1))).
  { injection H as <-. cbn [j_v]. unfold v. f_equal; f_equal; f_equal; lia. }
  rewrite Z. clear Z H.
  pose proof (Rmax_l (v 0 0) (v 0 1)). pose proof (Rmax_r (v 0 0) (v 0 1)). pose proof (Rmax_l (v 1 0) (v 1 1)). pose proof (Rmax_r (v 1 0) (v 1 1)).
  pose proof (Rmax_l (Rmax (v 0 0) (v 0 1)) (Rmax (v 1 0) (v 1 1))). pose proof (Rmax_r (Rmax (v 0 0) (v 0 1)) (Rmax (v 1 0) (v 1 1))). split.
  - intros d e Hd He. change (j_v x c (2 * r + d) (2 * s + e)) with (v d e). destruct d as [|[|d]]; destruct e as [|[|e]]; try lia; lra.
  - unfold Rmax at 1. destruct (Rle_dec _ _); unfold Rmax; destruct (Rle_dec _ _);
      [exists 1, 1|exists 1, 0|exists 0, 1|exists 0, 0]; (split; [lia|]; split; [lia|reflexivity]).
Qed.

(** Flattening writes the entries channel by channel, and row by row in a channel. *)
Theorem C165_flatten : (forall x c t, c < i_c x -> t < i_n x -> nth (c * i_n x + t) (flatten2 x) 0%R = i_v x c t) /\
  forall x c r s, c < j_c x -> r < j_h x -> s < j_w x -> nth ((c * j_h x + r) * j_w x + s) (flatten3 x) 0%R = j_v x c r s.
Proof.
  assert (L : forall (f : nat -> R) n, length (map f (seq 0 n)) = n) by (intros; now rewrite map_length, seq_length).
  assert (V : forall (f : nat -> R) n i, i < n -> nth i (map f (seq 0 n)) 0%R = f i).
  { intros f n i Hi. rewrite (nth_indep _ 0%R (f 0)) by (now rewrite L). rewrite map_nth. now rewrite seq_nth. }
  split.
  - intros x c t Hc Ht. unfold flatten2. rewrite (nth_blocks (fun c => map (i_v x c) (seq 0 (i_n x))) (i_n x) 0%R (fun c => L _ _) _ c t 0) by (rewrite ?seq_length; auto).
    rewrite seq_nth, V by auto. reflexivity.
  - intros x c r s Hc Hr Hs. unfold flatten3.
    assert (LB : forall c, length (flat_map (fun r => map (j_v x c r) (seq 0 (j_w x))) (seq 0 (j_h x))) = j_h x * j_w x).
    { intros c'. rewrite (flat_map_length_const _ _ (j_w x)); [now rewrite seq_length|]. intros q _. now rewrite map_length, seq_length. }
    replace ((c * j_h x + r) * j_w x + s) with (c * (j_h x * j_w x) + (r * j_w x + s)) by nia.
    rewrite (nth_blocks (fun c => flat_map (fun r => map (j_v x c r) (seq 0 (j_w x))) (seq 0 (j_h x))) (j_h x * j_w x) 0%R LB _ c (r * j_w x + s) 0) by (rewrite ?seq_length; auto; nia).
    rewrite seq_nth by auto. cbn [Nat.add].
    rewrite (nth_blocks (fun r => map (j_v x c r) (seq 0 (j_w x))) (j_w x) 0%R (fun r => L _ _) _ r s 0) by (rewrite ?seq_length; auto).
    rewrite seq_nth, V by auto. reflexivity.
Qed.

(** Averaging over the positions of a channel. *)
Theorem C165_pool : forall x c, c < i_c x -> nth c (pool x) 0%R = (vsum (map (i_v x c) (seq 0 (i_n x))) / INR (i_n x))%R.
Proof.
  intros x c Hc. unfold pool.
  assert (V : forall (f : nat -> R) n i, i < n -> nth i (map f (seq 0 n)) 0%R = f i).
  { intros f n i Hi. rewrite (nth_indep _ 0%R (f 0)) by (now rewrite map_length, seq_length). rewrite map_nth. now rewrite seq_nth. }
  rewrite (V (fun c => mean (map (i_v x c) (seq 0 (i_n x))))) by auto. unfold mean. now rewrite map_length, seq_length.
Qed.

(** A linear layer takes a row of the width it was made for, and only such a row; output o is the sum of weight times input plus the bias. *)
Theorem C165_linear : forall l x,
  (length x <> l_in l -> linear_fwd l x = Err RuntimeError) /\
  (length x = l_in l -> exists y, linear_fwd l x = Ok y /\ length y = l_out l /\
     forall o d, o < l_out l -> nth o y d = (fold_right Rplus (l_b l o) (map (fun i => l_w l o i * nth i x 0) (seq 0 (length x))))%R).
Proof.
  intros l x. unfold linear_fwd. split; intros H.
  - apply Nat.eqb_neq in H. now rewrite H.
  - rewrite H, Nat.eqb_refl. eexists. split; [reflexivity|]. split; [now rewrite map_length, seq_length|]. intros o d Ho.
    set (f := fun o0 => (vsum (map (fun i => l_w l o0 i * nth i x 0) (seq 0 (l_in l))) + l_b l o0)%R).
    rewrite (nth_indep _ d (f 0)) by (now rewrite map_length, seq_length).
    rewrite map_nth, seq_nth by auto. cbn [Nat.add]. unfold f.
    induction (map (fun i => (l_w l o i * nth i x 0)%R) (seq 0 (l_in l))) as [|a r IH]; cbn [vsum fold_right]; [lra|]. rewrite <- IH. lra.
Qed.
(** The activation sets negative entries to zero and keeps the others, each at its place. *)
Theorem C165_relu : (forall x c t, i_v (relu2 x) c t = (if Rle_dec 0 (i_v x c t) then i_v x c t else 0%R)) /\
  forall x c r s, j_v (relu3 x) c r s = (if Rle_dec 0 (j_v x c r s) then j_v x c r s else 0%R).
Proof.
  assert (G : forall v, relu v = if Rle_dec 0 v then v else 0%R).
  { intros v. unfold relu, Rmax. repeat destruct (Rle_dec _ _); lra. }
  split; intros; apply G.
Qed.

(** A filter with two inputs and weights 2, 3. *)
Example C165_layers_ex : let c := mkConv1 1 1 2 (fun _ _ d => INR (2 + d)) (fun _ => 1%R) in
  exists z, conv1_fwd c (dot2 1 4 0 2) = Ok z /\ i_n z = 3 /\ i_v z 0 0 = 1%R /\ i_v z 0 1 = 4%R /\ i_v z 0 2 = 3%R.
Proof. eexists. split; [reflexivity|]. split; [reflexivity|]. cbn. lra. Qed.

(** ** C79: without x0 the scipy solver starts from ones. *)
Theorem C79_start : forall slsqp Q c A b Aeq beq lb ub ones max_iter, length ones = length Q -> Forall (fun v => v = 1%R) ones ->
  qp_solve slsqp Q c A b Aeq beq lb ub None max_iter "scipy" = qp_solve slsqp Q c A b Aeq beq lb ub (Some ones) max_iter "scipy".
Proof.
  intros slsqp Q c A b Aeq beq lb ub ones mi L F. unfold qp_solve. cbn. f_equal. rewrite <- L. clear L. induction F as [|v l E F IH]; [reflexivity|].
  cbn. now rewrite E, IH.
Qed.

(** ** C64: without weights the loss is the mean of the losses, and a loss that is already a number is kept. *)
Theorem C64_no_weights : forall loss sd, get_loss loss None sd = match loss with Scalar r => Ok (Some r) | Vec [] => Ok None | Vec l => Ok (Some (vsum l / INR (length l))%R) end.
Proof. intros [r|[|a l]] sd; reflexivity. Qed.

(** ** C160: the estimators built by the reweighting shorthands (and by OTLabelProp) ask for the sample weights, the others do not. *)
Definition weighting := ["DensityReweight"; "GaussianReweight"; "DiscriminatorReweight"; "KLIEPReweight"; "NearestNeighborReweight"; "KMMReweight"; "MMDTarSReweight"; "OTLabelProp"]%string.
Theorem C160_weights : forall n f, provided n f -> (f_weights f = true <-> In n weighting).
Proof.
  intros n f P. unfold provided, factories in P. repeat (destruct P as [P|P]; [injection P as <- <-; split; [intros H; try discriminate H; cbn; tauto|intros H; try reflexivity; cbn in H; repeat (destruct H as [H|H]; [discriminate H|]); destruct H]|]). destruct P.
Qed.

(** Three examples. *)
Example C79_start_ex : forall slsqp, qp_solve slsqp [[4; 0]; [0; 1]]%R None None None None None None None None 10 "scipy" =
  slsqp (mkProblem [] None) (qp_func [[4; 0]; [0; 1]]%R None) [1; 1]%R.
Proof. intros slsqp. rewrite (C79_start slsqp _ _ _ _ _ _ _ _ [1; 1]%R); [reflexivity|reflexivity|repeat constructor]. Qed.
Example C64_no_weights_ex : get_loss (Vec [1; 3]%R) None [1%Z] = Ok (Some 2%R).
Proof. rewrite C64_no_weights. cbn. do 2 f_equal. lra. Qed.
Example C160_weights_ex : exists f g, provided "KMMReweight" f /\ f_weights f = true /\ provided "CORAL" g /\ f_weights g = false.
Proof. eexists. eexists. split; [unfold provided, factories; cbn; repeat (try (left; reflexivity); right)|]. split; [reflexivity|]. split; [unfold provided, factories; cbn; repeat (try (left; reflexivity); right)|reflexivity]. Qed.

(** ** C191: the documentation of qp_solve says that the starting point is a vector of ones by default; the frank-wolfe solver starts elsewhere. *)
Theorem C191_starting_point_refuted : exists Q Aeq beq, forall slsqp, exists x f y g,
  qp_solve slsqp Q None None None (Some Aeq) (Some beq) None None None 1 "frank-wolfe" = Ok (x, f) /\
  qp_solve slsqp Q None None None (Some Aeq) (Some beq) None None (Some (repeat 1%R (length Q))) 1 "frank-wolfe" = Ok (y, g) /\ x <> y.
Proof.
  exists [[4; 0]; [0; 1]]%R, [[1; 1]]%R, [1%R]. intros slsqp. exists [1; 0]%R, 2%R, [0; 1]%R, (1 / 2)%R. split; [|split].
  - unfold qp_solve. cbn -[frank_wolfe]. unfold frank_wolfe, fw_loop, fw_step, fw_vertex, qp_jac, np_map2. cbn -[Rltb Rleb INR]. rewrite Rinv_1. decide_R. cbn -[INR Rltb Rleb]. decide_R. cbn -[INR]. simpl INR.
    unfold qp_func, np_matvec, np_dot. cbn. repeat (f_equal; try lra).
  - unfold qp_solve. cbn -[frank_wolfe]. unfold frank_wolfe, fw_loop, fw_step, fw_vertex, qp_jac, np_map2. cbn -[Rltb Rleb INR]. rewrite Rinv_1. decide_R. cbn -[INR Rltb Rleb]. decide_R. cbn -[INR]. simpl INR.
    unfold qp_func, np_matvec, np_dot. cbn. repeat (f_equal; try lra).
  - intros H. injection H. lra.
Qed.
