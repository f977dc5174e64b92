(** Theorems C165: the example networks. *)
From Coq Require Import String List ZArith Bool Arith Lia Reals Lra.
From Verif Require Import Np NpFacts RVec RVecFacts LossModel LossProofs NetModel NetSpec ThmNet ModuleModel.
Import ListNotations.
Local Open Scope nat_scope.
Local Open Scope list_scope.

(** In evaluation mode a network treats the samples one by one: the output of a batch lists the outputs of its samples. *)
Definition sample_wise {A} (f : list A -> res (list (list R))) : Prop :=
  exists g : A -> res (list R), forall X, (forall Y, f X = Ok Y <-> Forall2 (fun x y => g x = Ok y) X Y).

Lemma mapM_bind : forall {A B C} (f : A -> res B) (g : B -> res C) X Y,
  (h <- mapM f X ;; mapM g h) = Ok Y <-> Forall2 (fun x y => (b <- f x ;; g b) = Ok y) X Y.
Proof.
  intros A B C f g X Y. split.
  - intros E. apply bind_ok in E. destruct E as (h & E1 & E2). apply mapM_ok_iff in E1. apply mapM_ok_iff in E2. revert Y E2.
    induction E1 as [|x b X h Hx E1 IH]; intros Y E2; inversion E2; subst; constructor; [rewrite Hx; assumption | apply IH; assumption].
  - intros H. induction H as [|x y X Y Hx H IH]; [reflexivity|]. apply bind_ok in Hx. destruct Hx as (b & E1 & E2).
    apply bind_ok in IH. destruct IH as (h & I1 & I2). cbn [mapM]. rewrite E1. cbn [bind]. rewrite I1. cbn [bind mapM]. rewrite E2. cbn [bind]. rewrite I2. reflexivity.
Qed.
Lemma mapM_map : forall {A B C} (f : B -> res C) (g : A -> B) X, mapM f (map g X) = mapM (fun x => f (g x)) X.
Proof. intros A B C f g X. induction X as [|x X IH]; [reflexivity|]. cbn [map mapM]. now rewrite IH. Qed.
Lemma linear_length : forall l x y, linear_fwd l x = Ok y -> length x = l_in l /\ length y = l_out l.
Proof. intros l x y E. unfold linear_fwd in E. destruct (Nat.eqb_spec (length x) (l_in l)) as [H|]; [|discriminate]. injection E as <-. split; [exact H|]. now rewrite map_length, seq_length. Qed.
Lemma linear_defined : forall l x, length x = l_in l -> exists y, linear_fwd l x = Ok y.
Proof. intros l x H. unfold linear_fwd. rewrite (proj2 (Nat.eqb_eq _ _) H). eauto. Qed.

(** ** ToyModule2D *)
Lemma toy2d_eval : forall t X Y, toy2d_fwd t None X = Ok Y <->
  Forall2 (fun x y => (h <- linear_fwd (t_dense0 t) x ;; o <- linear_fwd (t_dense1 t) (map (t_nonlin t) h) ;; Ok (if t_proba t then softmax o else o)) = Ok y) X Y.
Proof.
  intros t X Y. rewrite <- (mapM_bind (linear_fwd (t_dense0 t)) (fun h => o <- linear_fwd (t_dense1 t) (map (t_nonlin t) h) ;; Ok (if t_proba t then softmax o else o))).
  unfold toy2d_fwd. cbn [dropout]. destruct (mapM (linear_fwd (t_dense0 t)) X) as [h|e]; [|tauto]. cbn [bind]. rewrite mapM_map.
  assert (K : forall l, (o <- mapM (fun x => linear_fwd (t_dense1 t) (map (t_nonlin t) x)) l ;; Ok (if t_proba t then map softmax o else o)) =
                        mapM (fun h => o <- linear_fwd (t_dense1 t) (map (t_nonlin t) h) ;; Ok (if t_proba t then softmax o else o)) l).
  { intros l. induction l as [|x l IH]; [cbn; destruct (t_proba t); reflexivity|]. cbn [mapM]. rewrite <- IH.
    destruct (linear_fwd (t_dense1 t) (map (t_nonlin t) x)); [|reflexivity]. cbn [bind].
    destruct (mapM _ l); [|reflexivity]. cbn [bind]. destruct (t_proba t); reflexivity. }
  rewrite K. tauto.
Qed.
Theorem C165_toy2d_sample_wise : forall t, sample_wise (toy2d_fwd t None).
Proof. intros t. eexists. intros X Y. apply toy2d_eval. Qed.
(** n_classes outputs for every sample, for samples with two features and for no others. *)
Theorem C165_toy2d_shape : forall n_classes num_features nonlin proba w0 w1 b0 b1 X,
  let t := toy2d_new n_classes num_features nonlin proba w0 w1 b0 b1 in
  ((forall x, In x X -> length x = 2) -> exists Y, toy2d_fwd t None X = Ok Y /\ length Y = length X /\ forall y, In y Y -> length y = n_classes) /\
  (forall x, In x X -> length x <> 2 -> forall mask, toy2d_fwd t mask X = Err RuntimeError).
Proof.
  intros k nf nl proba w0 w1 b0 b1 X t. split.
  - intros H. assert (E : exists Y, toy2d_fwd t None X = Ok Y /\ forall y, In y Y -> length y = k).
    { induction X as [|x X IH]; [exists []; split; [apply toy2d_eval; constructor | intros y []]|].
      destruct IH as (Y & E & L); [intros x' I; apply H; right; exact I|]. apply toy2d_eval in E.
      destruct (linear_defined (t_dense0 t) x) as [h Eh]; [apply H; left; reflexivity|].
      destruct (linear_defined (t_dense1 t) (map (t_nonlin t) h)) as [o Eo]; [rewrite map_length; apply linear_length in Eh; exact (proj2 Eh)|].
      exists ((if t_proba t then softmax o else o) :: Y). split.
      - apply toy2d_eval. constructor; [|exact E]. rewrite Eh. cbn [bind]. rewrite Eo. reflexivity.
      - intros y [<-|I]; [|apply L; exact I]. apply linear_length in Eo. destruct (t_proba t); [rewrite softmax_length|]; exact (proj2 Eo). }
    destruct E as (Y & E & L). exists Y. split; [exact E|]. split; [|exact L]. apply toy2d_eval in E. clear - E. induction E; cbn [length]; congruence.
  - intros x I N mask. unfold toy2d_fwd.
    assert (M : mapM (linear_fwd (t_dense0 t)) X = Err RuntimeError).
    { clear - I N. induction X as [|z X IH]; [destruct I|]. cbn [mapM]. unfold linear_fwd at 1. cbn [t t_dense0 toy2d_new l_in].
      destruct (Nat.eqb_spec (length z) 2) as [Z|Z]; [|reflexivity]. cbn [bind]. destruct I as [->|I]; [contradiction|].
      change (linear_fwd (mkLin 2 nf w0 b0)) with (linear_fwd (t_dense0 t)). rewrite (IH I). reflexivity. }
    rewrite M. reflexivity.
Qed.
(** With proba=True the outputs are probabilities, and the largest is where it is with proba=False. *)
Theorem C165_toy2d_proba : forall n_classes num_features nonlin w0 w1 b0 b1 mask X P, 0 < n_classes ->
  toy2d_fwd (toy2d_new n_classes num_features nonlin true w0 w1 b0 b1) mask X = Ok P ->
  exists Y, toy2d_fwd (toy2d_new n_classes num_features nonlin false w0 w1 b0 b1) mask X = Ok Y /\ Forall probabilities P /\
            Forall2 (fun y p => np_argmax y = np_argmax p) Y P.
Proof.
  intros k nf nl w0 w1 b0 b1 mask X P Hk E. unfold toy2d_fwd in *. cbn [toy2d_new t_dense0 t_nonlin t_dense1 t_proba] in *.
  destruct (mapM (linear_fwd (mkLin 2 nf w0 b0)) X) as [h|]; [|discriminate]. cbn [bind] in *.
  destruct (mapM (linear_fwd (mkLin nf k w1 b1)) _) as [o|] eqn:Eo; [|discriminate]. cbn [bind] in *. injection E as <-. exists o. split; [reflexivity|].
  assert (L : forall r, In r o -> r <> []).
  { intros r I. apply mapM_ok_iff in Eo. assert (Q : length r = k).
    { clear - Eo I. induction Eo as [|a b A B H _ IH]; [destruct I|]. destruct I as [<-|I]; [apply linear_length in H; exact (proj2 H) | exact (IH I)]. }
    intros ->. cbn in Q. lia. }
  split.
  - apply Forall_forall. intros p I. apply in_map_iff in I. destruct I as (r & <- & I). apply softmax_probabilities. now apply L.
  - clear. induction o as [|r o IH]; cbn [map]; constructor; [|exact IH]. symmetry. apply argmax_softmax.
Qed.
(** Training mode: an entry is dropped or doubled, so that keeping and dropping average to the entry. *)
Theorem C165_dropout_mean : forall p x, (0 <= p < 1)%R ->
  ((1 - p) * hd 0 (hd [] (dropout p (Some [[true]]) [[x]])) + p * hd 0 (hd [] (dropout p (Some [[false]]) [[x]])) = hd 0 (hd [] (dropout p None [[x]])))%R.
Proof. intros p x H. cbn. field. lra. Qed.

(** ** ToyCNN *)
Lemma flat_map_length_const : forall {A B} (f : A -> list B) l n, (forall a, In a l -> length (f a) = n) -> length (flat_map f l) = length l * n.
Proof.
  intros A B f l n. induction l as [|a l IH]; intros H; [reflexivity|]. cbn [flat_map length]. rewrite app_length, (H a (or_introl eq_refl)), IH; [lia|].
  intros b I. apply H. right. exact I.
Qed.
Lemma flatten2_length : forall x, length (flatten2 x) = i_c x * i_n x.
Proof.
  intros x. unfold flatten2. rewrite (flat_map_length_const _ _ (i_n x)); [now rewrite seq_length|]. intros a _. now rewrite map_length, seq_length.
Qed.
Lemma features_shape : forall c x y, cnn_features c x = Ok y -> i_c y = c_out c /\ i_n y + c_k c = i_n x + 1 /\ i_c x = c_in c.
Proof.
  intros c x y E. unfold cnn_features, conv1_fwd in E. destruct (Nat.eqb_spec (i_c x) (c_in c)) as [H1|]; [|discriminate].
  destruct (Nat.leb_spec (c_k c) (i_n x)) as [H2|]; [|discriminate]. cbn [andb] in E. destruct (c_k c =? 0); [discriminate|]. cbn in E. injection E as <-. cbn. repeat split; lia.
Qed.
(** The attribute num_features: the size of the flattened features of every sample of the announced size, whatever memory the
    uninitialised tensor of the constructor showed. *)
Theorem C165_cnn_num_features : forall n_channels input_size n_classes kernel_size out_channels w b wf bf garbage n,
  cnn_new n_channels input_size n_classes kernel_size out_channels w b wf bf garbage = Ok n ->
  n_num_features n = out_channels * (input_size - kernel_size + 1) /\
  forall x y, i_n x = input_size -> cnn_features (n_conv n) x = Ok y -> length (flatten2 y) = n_num_features n.
Proof.
  intros ch size k ks oc w b wf bf garbage n E. unfold cnn_new in E.
  destruct ((ks =? 0) || (ch =? 0) || (oc =? 0)); [discriminate|]. destruct (cnn_features _ _) as [out|] eqn:F; [|discriminate]. cbn [bind] in E. injection E as <-.
  cbn [n_num_features n_conv]. pose proof (features_shape _ _ _ F) as (H1 & H2 & H3). cbn in H1, H2, H3. split.
  - rewrite flatten2_length, H1. f_equal. assert (L : ks <= size). { unfold cnn_features, conv1_fwd in F. cbn in F. destruct (Nat.leb_spec ks size); [assumption|]. rewrite andb_false_r in F. cbn in F. discriminate. } lia.
  - intros x y Hx G. pose proof (features_shape _ _ _ G) as (G1 & G2 & G3). cbn in G1, G2, G3. rewrite !flatten2_length, H1, G1. f_equal. lia.
Qed.
(** The constructor works exactly for a kernel that fits into the input. *)
Theorem C165_cnn_new : forall n_channels input_size n_classes kernel_size out_channels w b wf bf garbage,
  0 < n_channels -> 0 < out_channels -> 0 < kernel_size ->
  (kernel_size <= input_size -> exists n, cnn_new n_channels input_size n_classes kernel_size out_channels w b wf bf garbage = Ok n) /\
  (input_size < kernel_size -> cnn_new n_channels input_size n_classes kernel_size out_channels w b wf bf garbage = Err RuntimeError).
Proof.
  intros ch size k ks oc w b wf bf garbage Hc Ho Hk. unfold cnn_new.
  destruct (Nat.eqb_spec ks 0); [lia|]. destruct (Nat.eqb_spec ch 0); [lia|]. destruct (Nat.eqb_spec oc 0); [lia|]. cbn [orb].
  unfold cnn_features, conv1_fwd. cbn [i_c c_in c_k i_n]. rewrite Nat.eqb_refl. destruct (Nat.eqb_spec ks 0); [lia|]. split; intros H.
  - destruct (Nat.leb_spec ks size); [|lia]. cbn [andb negb bind]. eauto.
  - destruct (Nat.leb_spec ks size); [lia|]. reflexivity.
Qed.
Theorem C165_cnn_sample_wise : forall n, sample_wise (cnn_fwd n).
Proof. intros n. eexists. intros X Y. unfold cnn_fwd. apply mapM_bind. Qed.
(** Inputs at least as long as the kernel, of any length, get n_classes outputs. *)
Theorem C165_cnn_shape : forall n_channels input_size n_classes kernel_size out_channels w b wf bf garbage n X,
  cnn_new n_channels input_size n_classes kernel_size out_channels w b wf bf garbage = Ok n ->
  (forall x, In x X -> i_c x = n_channels /\ kernel_size <= i_n x) ->
  exists Y, cnn_fwd n X = Ok Y /\ length Y = length X /\ forall y, In y Y -> length y = n_classes.
Proof.
  intros ch size k ks oc w b wf bf garbage n X E H. unfold cnn_new in E.
  destruct (Nat.eqb_spec ks 0) as [|Hk]; [discriminate|]. destruct ((ch =? 0)); [discriminate|]. destruct (oc =? 0); [discriminate|]. cbn [orb] in E.
  destruct (cnn_features _ (mkImg2 ch size garbage)) as [out|] eqn:F0; [|discriminate]. cbn [bind] in E. injection E as <-. clear F0.
  set (n := mkCnn _ _ _ _).
  assert (G : exists Y, Forall2 (fun x y => (f <- cnn_features (n_conv n) x ;; linear_fwd (n_fc n) (pool f)) = Ok y) X Y /\ forall y, In y Y -> length y = k).
  { induction X as [|x X IH]; [exists []; split; [constructor | intros y []]|].
    destruct IH as (Y & E & L); [intros z I; apply H; right; exact I|]. destruct (H x (or_introl eq_refl)) as [Hc Hn].
    assert (F : exists f, cnn_features (n_conv n) x = Ok f).
    { unfold cnn_features, conv1_fwd. cbn [n n_conv c_in c_k]. rewrite (proj2 (Nat.eqb_eq _ _) Hc), (proj2 (Nat.leb_le _ _) Hn), (proj2 (Nat.eqb_neq _ _) Hk). cbn. eauto. }
    destruct F as [f F]. pose proof (features_shape _ _ _ F) as (S1 & _ & _). cbn in S1.
    destruct (linear_defined (n_fc n) (pool f)) as [o Eo]; [unfold pool; rewrite map_length, seq_length; exact S1|].
    exists (o :: Y). split; [constructor; [rewrite F; exact Eo | exact E]|]. intros y [<-|I]; [apply linear_length in Eo; exact (proj2 Eo) | apply L; exact I]. }
  destruct G as (Y & G & L). exists Y. split; [unfold cnn_fwd; apply mapM_bind; exact G|]. split; [|exact L]. clear - G. induction G; cbn [length]; congruence.
Qed.

(** ** MNISTtoUSPSNet *)
Lemma flatten3_length : forall x, length (flatten3 x) = j_c x * (j_h x * j_w x).
Proof.
  intros x. unfold flatten3. rewrite (flat_map_length_const _ _ (j_h x * j_w x)); [now rewrite seq_length|]. intros a _.
  rewrite (flat_map_length_const _ _ (j_w x)); [now rewrite seq_length|]. intros c _. now rewrite map_length, seq_length.
Qed.
Lemma mnet_conv_shape : forall n x y, mnet_conv n x = Ok y -> j_c x = 1 /\ j_c y = 64 /\ j_h y = (j_h x - 4) / 2 /\ j_w y = (j_w x - 4) / 2.
Proof.
  intros n x y E. unfold mnet_conv in E. unfold conv3_fwd at 1 in E. destruct (Nat.eqb_spec (j_c x) 1) as [H1|]; [|discriminate].
  destruct (Nat.leb_spec 3 (j_h x)) as [H2|]; [|discriminate]. destruct (Nat.leb_spec 3 (j_w x)) as [H3|]; [|discriminate]. cbn [andb bind] in E.
  unfold conv3_fwd, relu3 in E. cbn [j_c j_h j_w] in E. rewrite Nat.eqb_refl in E.
  destruct (Nat.leb_spec 3 (j_h x - 2)) as [H4|]; [|discriminate]. destruct (Nat.leb_spec 3 (j_w x - 2)) as [H5|]; [|discriminate]. cbn [andb bind] in E.
  unfold maxpool in E. cbn [j_c j_h j_w] in E. destruct ((2 <=? j_h x - 2 - 2) && (2 <=? j_w x - 2 - 2)); [|discriminate]. injection E as <-. cbn [j_c j_h j_w].
  replace (j_h x - 2 - 2) with (j_h x - 4) by lia. replace (j_w x - 2 - 2) with (j_w x - 4) by lia. split; [exact H1|]. split; [reflexivity|]. split; reflexivity.
Qed.
Lemma mnet_conv_defined : forall n x, j_c x = 1 -> 6 <= j_h x -> 6 <= j_w x -> exists y, mnet_conv n x = Ok y.
Proof.
  intros n x H1 H2 H3. unfold mnet_conv, conv3_fwd at 1. rewrite (proj2 (Nat.eqb_eq _ _) H1).
  destruct (Nat.leb_spec 3 (j_h x)); [|lia]. destruct (Nat.leb_spec 3 (j_w x)); [|lia]. cbn [andb bind].
  unfold conv3_fwd, relu3. cbn [j_c j_h j_w]. rewrite Nat.eqb_refl. destruct (Nat.leb_spec 3 (j_h x - 2)); [|lia]. destruct (Nat.leb_spec 3 (j_w x - 2)); [|lia]. cbn [andb bind].
  unfold maxpool. cbn [j_c j_h j_w]. destruct (Nat.leb_spec 2 (j_h x - 2 - 2)); [|lia]. destruct (Nat.leb_spec 2 (j_w x - 2 - 2)); [|lia]. cbn [andb]. eauto.
Qed.
Theorem C165_mnist_sample_wise : forall n, sample_wise (mnet_fwd n None None).
Proof.
  intros n. eexists. intros X Y. unfold mnet_fwd. cbn [dropout].
  assert (K : (f <- mapM (mnet_conv n) X ;; h <- mapM (linear_fwd (m_fc1 n)) (map flatten3 f) ;; mapM (linear_fwd (m_fc2 n)) (map (map relu) h)) = Ok Y <->
              (f <- mapM (mnet_conv n) X ;; mapM (fun f => h <- linear_fwd (m_fc1 n) (flatten3 f) ;; linear_fwd (m_fc2 n) (map relu h)) f) = Ok Y).
  { destruct (mapM (mnet_conv n) X) as [f|]; [|tauto]. cbn [bind]. rewrite mapM_map.
    rewrite (mapM_ok_iff (fun f => h <- linear_fwd (m_fc1 n) (flatten3 f) ;; linear_fwd (m_fc2 n) (map relu h))).
    rewrite <- (mapM_bind (fun f => linear_fwd (m_fc1 n) (flatten3 f)) (fun h => linear_fwd (m_fc2 n) (map relu h))).
    destruct (mapM _ f) as [h|]; [|tauto]. cbn [bind]. rewrite mapM_map. tauto. }
  rewrite K. apply (mapM_bind (mnet_conv n) (fun f => h <- linear_fwd (m_fc1 n) (flatten3 f) ;; linear_fwd (m_fc2 n) (map relu h))).
Qed.
(** Exactly the images with one channel and 144 blocks after the convolutions are accepted; they get ten outputs. *)
Theorem C165_mnist_accepts : forall n x, (exists y, mnet_fwd n None None [x] = Ok y) <-> (j_c x = 1 /\ ((j_h x - 4) / 2) * ((j_w x - 4) / 2) = 144).
Proof.
  intros n x. split.
  - intros [y E]. unfold mnet_fwd in E. cbn [mapM] in E. destruct (mnet_conv n x) as [f|] eqn:F; [|discriminate]. cbn [bind dropout map mapM] in E.
    destruct (linear_fwd (m_fc1 n) (flatten3 f)) as [h|] eqn:L; [|discriminate]. apply linear_length in L. destruct L as [L _]. rewrite flatten3_length in L.
    pose proof (mnet_conv_shape _ _ _ F) as (S1 & S2 & S3 & S4). split; [exact S1|]. rewrite S2, S3, S4 in L. cbn [m_fc1 l_in] in L.
    assert (Q : 64 * ((j_h x - 4) / 2 * ((j_w x - 4) / 2)) = 64 * 144) by (rewrite L; reflexivity). apply Nat.mul_cancel_l in Q; [exact Q | discriminate].
  - intros [H1 H2].
    assert (A : 6 <= j_h x). { destruct (Nat.le_gt_cases 6 (j_h x)); [assumption|]. assert (Z : (j_h x - 4) / 2 = 0) by (apply Nat.div_small; lia). rewrite Z in H2. discriminate. }
    assert (B : 6 <= j_w x). { destruct (Nat.le_gt_cases 6 (j_w x)); [assumption|]. assert (Z : (j_w x - 4) / 2 = 0) by (apply Nat.div_small; lia). rewrite Z, Nat.mul_0_r in H2. discriminate. }
    destruct (mnet_conv_defined n x H1 A B) as [f F]. pose proof (mnet_conv_shape _ _ _ F) as (_ & S2 & S3 & S4).
    destruct (linear_defined (m_fc1 n) (flatten3 f)) as [h Eh].
    { rewrite flatten3_length, S2, S3, S4, H2. reflexivity. }
    destruct (linear_defined (m_fc2 n) (map relu h)) as [o Eo]; [rewrite map_length; apply linear_length in Eh; exact (proj2 Eh)|].
    exists [o]. unfold mnet_fwd. cbn [mapM]. rewrite F. cbn [bind dropout map mapM]. rewrite Eh. cbn [bind map mapM]. rewrite Eo. reflexivity.
Qed.
Theorem C165_mnist_shape : forall n mask1 mask2 X Y, mnet_fwd n mask1 mask2 X = Ok Y -> forall y, In y Y -> length y = 10.
Proof.
  intros n m1 m2 X Y E y I. unfold mnet_fwd in E. destruct (mapM (mnet_conv n) X) as [f|]; [|discriminate]. cbn [bind] in E.
  destruct (mapM (linear_fwd (m_fc1 n)) _) as [h|]; [|discriminate]. cbn [bind] in E. apply mapM_ok_iff in E.
  induction E as [|a b A B H _ IH]; [destruct I|]. destruct I as [<-|I]; [apply linear_length in H; exact (proj2 H) | exact (IH I)].
Qed.
(** Images of 28 x 28 are accepted, the 16 x 16 images of USPS are not. *)
Example C165_ex : (forall n v, exists y, mnet_fwd n None None [mkImg3 1 28 28 v] = Ok y) /\ (forall n v y, mnet_fwd n None None [mkImg3 1 16 16 v] <> Ok y) /\
  (exists n, cnn_new 3 100 2 3 2 (fun _ _ _ => 1%R) (fun _ => 0%R) (fun _ _ => 1%R) (fun _ => 0%R) (fun _ _ => 7%R) = Ok n /\ n_num_features n = 196) /\
  toy2d_fwd (toy2d_new 2 1 relu false (fun _ _ => 1%R) (fun o _ => INR o) (fun _ => 0%R) (fun _ => 1%R)) None [[1; 2]; [-3; 1]]%R = Ok [[1; 4]; [1; 1]]%R.
Proof.
  split; [|split; [|split]].
  - intros n v. apply C165_mnist_accepts. split; reflexivity.
  - intros n v y E. assert (K : exists y, mnet_fwd n None None [mkImg3 1 16 16 v] = Ok y) by eauto. apply C165_mnist_accepts in K. destruct K as [_ K]. discriminate K.
  - destruct (C165_cnn_new 3 100 2 3 2 (fun _ _ _ => 1%R) (fun _ => 0%R) (fun _ _ => 1%R) (fun _ => 0%R) (fun _ _ => 7%R)) as [A _]; try lia.
    destruct A as [n E]; [lia|]. exists n. split; [exact E|]. apply C165_cnn_num_features in E. rewrite (proj1 E). reflexivity.
  - cbn. unfold relu. replace (1 * 1 + (1 * 2 + 0) + 0)%R with 3%R by ring. replace (1 * -3 + (1 * 1 + 0) + 0)%R with (-2)%R by ring.
    rewrite (Rmax_right 0 3) by lra. rewrite (Rmax_left 0 (-2)) by lra. repeat f_equal; lra.
Qed.
