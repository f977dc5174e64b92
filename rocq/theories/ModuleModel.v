(** Model of the example networks in /repo/skada/deep/modules.py: ToyModule2D (lines 13-73), ToyCNN (lines 76-133) and MNISTtoUSPSNet
    (lines 199-228). Numbers are real numbers (rounding is not modelled); the argument sample_weight of the forward methods is unused
    and left out. Weights are arbitrary. *)
From Coq Require Import String List ZArith Bool Arith Lia Reals Lra.
From Verif Require Import Np RVec LossModel.
Import ListNotations.
Local Open Scope nat_scope.
Local Open Scope list_scope.

(** ** torch.nn (trusted base) *)

(** Linear(l_in, l_out): weights with one row for every output, and offsets. *)
Record linear := mkLin { l_in : nat; l_out : nat; l_w : nat -> nat -> R; l_b : nat -> R }.
Definition linear_fwd (l : linear) (x : list R) : res (list R) :=
  if length x =? l_in l
  then Ok (map (fun o => vsum (map (fun i => l_w l o i * nth i x 0) (seq 0 (l_in l))) + l_b l o)%R (seq 0 (l_out l)))
  else Err RuntimeError.
Definition relu (x : R) : R := Rmax 0 x.
(** Dropout(p) of a batch of rows: the identity in evaluation mode ([None]); in training mode a mask is drawn, entries kept are divided
    by 1 - p. *)
Definition dropout (p : R) (mask : option (list (list bool))) (X : list (list R)) : list (list R) :=
  match mask with
  | None => X
  | Some m => map2 (map2 (fun (k : bool) x => if k then x / (1 - p) else 0)%R) m X
  end.

(** ** ToyModule2D *)

(** Lines 33-44; [t_nonlin]: a function applied to every entry (simplification: the module given may be any). *)
Record toy2d := mkToy { t_dense0 : linear; t_nonlin : R -> R; t_dense1 : linear; t_proba : bool }.
Definition toy2d_new (n_classes num_features : nat) (nonlin : R -> R) (proba : bool) (w0 w1 : nat -> nat -> R) (b0 b1 : nat -> R) : toy2d :=
  mkToy (mkLin 2 num_features w0 b0) nonlin (mkLin num_features n_classes w1 b1) proba.
(** Lines 46-73. *)
Definition toy2d_fwd (t : toy2d) (mask : option (list (list bool))) (X : list (list R)) : res (list (list R)) :=
  h <- mapM (linear_fwd (t_dense0 t)) X ;;
  let h := map (map (t_nonlin t)) h in
  let h := dropout (1 / 2) mask h in
  o <- mapM (linear_fwd (t_dense1 t)) h ;;
  Ok (if t_proba t then map softmax o else o).

(** ** ToyCNN *)

(** Conv1d(c_in, c_out, c_k) of a sample with channels and positions. *)
Record conv1 := mkConv1 { c_in : nat; c_out : nat; c_k : nat; c_w : nat -> nat -> nat -> R; c_b : nat -> R }.
(** A tensor with two dimensions: its shape and its entries. *)
Record img2 := mkImg2 { i_c : nat; i_n : nat; i_v : nat -> nat -> R }.
Definition conv1_fwd (c : conv1) (x : img2) : res img2 :=
  if (i_c x =? c_in c) && (c_k c <=? i_n x) && negb (c_k c =? 0)
  then Ok (mkImg2 (c_out c) (i_n x - c_k c + 1)
             (fun o t => vsum (flat_map (fun i => map (fun d => c_w c o i d * i_v x i (t + d))%R (seq 0 (c_k c))) (seq 0 (c_in c))) + c_b c o)%R)
  else Err RuntimeError.
Definition relu2 (x : img2) : img2 := mkImg2 (i_c x) (i_n x) (fun c t => relu (i_v x c t)).
Definition flatten2 (x : img2) : list R := flat_map (fun c => map (i_v x c) (seq 0 (i_n x))) (seq 0 (i_c x)).
(** AdaptiveAvgPool1d(1) followed by Flatten: the mean of every channel. *)
Definition pool (x : img2) : list R := map (fun c => mean (map (i_v x c) (seq 0 (i_n x)))) (seq 0 (i_c x)).

Record cnn := mkCnn { n_conv : conv1; n_num_features : nat; n_fc : linear; n_training : bool }.
(** Lines 98-101: the feature extractor on one sample. *)
Definition cnn_features (c : conv1) (x : img2) : res img2 := y <- conv1_fwd c x ;; Ok (relu2 y).
(** Lines 93-107 and 128-133; [garbage]: the entries of the uninitialised tensor of line 131. *)
Definition cnn_new (n_channels input_size n_classes kernel_size out_channels : nat) (w : nat -> nat -> nat -> R) (b : nat -> R) (wf : nat -> nat -> R) (bf : nat -> R)
           (garbage : nat -> nat -> R) : res cnn :=
  let conv := mkConv1 n_channels out_channels kernel_size w b in
  if (kernel_size =? 0) || (n_channels =? 0) || (out_channels =? 0) then Err ValueError else
  out <- cnn_features conv (mkImg2 n_channels input_size garbage) ;;
  Ok (mkCnn conv (length (flatten2 out)) (mkLin out_channels n_classes wf bf) true).
(** Lines 109-126. *)
Definition cnn_fwd (n : cnn) (X : list img2) : res (list (list R)) :=
  f <- mapM (cnn_features (n_conv n)) X ;;
  mapM (fun y => linear_fwd (n_fc n) (pool y)) f.

(** ** MNISTtoUSPSNet *)

(** A tensor with three dimensions: channels, height, width. *)
Record img3 := mkImg3 { j_c : nat; j_h : nat; j_w : nat; j_v : nat -> nat -> nat -> R }.
(** Conv2d(in, out, 3, 1). *)
Definition conv3_fwd (cin cout : nat) (w : nat -> nat -> nat -> nat -> R) (b : nat -> R) (x : img3) : res img3 :=
  if (j_c x =? cin) && (3 <=? j_h x) && (3 <=? j_w x)
  then Ok (mkImg3 cout (j_h x - 2) (j_w x - 2)
             (fun o r s => vsum (flat_map (fun i => flat_map (fun d => map (fun e => w o i d e * j_v x i (r + d) (s + e))%R (seq 0 3)) (seq 0 3)) (seq 0 cin)) + b o)%R)
  else Err RuntimeError.
Definition relu3 (x : img3) : img3 := mkImg3 (j_c x) (j_h x) (j_w x) (fun c r s => relu (j_v x c r s)).
(** MaxPool2d(2): blocks of 2 x 2, an odd last row or column is left out; an empty result is refused. *)
Definition maxpool (x : img3) : res img3 :=
  if (2 <=? j_h x) && (2 <=? j_w x)
  then Ok (mkImg3 (j_c x) (j_h x / 2) (j_w x / 2)
             (fun c r s => Rmax (Rmax (j_v x c (2 * r) (2 * s)) (j_v x c (2 * r) (2 * s + 1))) (Rmax (j_v x c (2 * r + 1) (2 * s)) (j_v x c (2 * r + 1) (2 * s + 1)))))
  else Err RuntimeError.
Definition flatten3 (x : img3) : list R := flat_map (fun c => flat_map (fun r => map (j_v x c r) (seq 0 (j_w x))) (seq 0 (j_h x))) (seq 0 (j_c x)).

(** Lines 202-213. *)
Record mnet := mkMnet { m_w1 : nat -> nat -> nat -> nat -> R; m_b1 : nat -> R; m_w2 : nat -> nat -> nat -> nat -> R; m_b2 : nat -> R;
                        m_wf1 : nat -> nat -> R; m_bf1 : nat -> R; m_wf2 : nat -> nat -> R; m_bf2 : nat -> R }.
(** 9216 = 96 * 96 inputs. *)
Definition m_fc1 (n : mnet) : linear := mkLin (96 * 96) 128 (m_wf1 n) (m_bf1 n).
Definition m_fc2 (n : mnet) : linear := mkLin 128 10 (m_wf2 n) (m_bf2 n).
(** Lines 217-221: the convolutional part, on one sample. *)
Definition mnet_conv (n : mnet) (x : img3) : res img3 :=
  x <- conv3_fwd 1 32 (m_w1 n) (m_b1 n) x ;;
  x <- conv3_fwd 32 64 (m_w2 n) (m_b2 n) (relu3 x) ;;
  maxpool (relu3 x).
(** Lines 215-228; the first dropout (of a quarter of the entries, before flattening) and the second one have their masks. *)
Definition mnet_fwd (n : mnet) (mask1 mask2 : option (list (list bool))) (X : list img3) : res (list (list R)) :=
  f <- mapM (mnet_conv n) X ;;
  h <- mapM (linear_fwd (m_fc1 n)) (dropout (1 / 4) mask1 (map flatten3 f)) ;;
  mapM (linear_fwd (m_fc2 n)) (dropout (1 / 2) mask2 (map (map relu) h)).
