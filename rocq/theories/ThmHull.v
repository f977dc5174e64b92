(** Theorems C238: optimal transport moves the sources among the targets. *)
From Coq Require Import String List ZArith QArith Bool Arith Lia Reals Lra Qreals.
From Verif Require Import Np NpFacts Labels Spec SpecFacts UtilsModel UtilsSpec SelectModel RVec RVecFacts
  MapModel RMat OTModel OTSpec ThmJdot MapSpec MapProofs ThmMap.
From Verif Require ThmRecal SubProofs ThmOrder2.
Import ListNotations.
Local Open Scope nat_scope.
Local Open Scope list_scope.
Notation reals := ThmRecal.reals.

(** ** Specification *)
(** A linear reading of a row of D features: c 0 x_0 + c 1 x_1 + ... *)
Definition reading (D : nat) (c : nat -> R) (x : list R) : R := msum D (fun k => c k * nth k x 0)%R.
(** A transport that, once fitted, sends each training source row to the barycentre of the target rows under some plan with uniform marginals. *)
Definition to_barycentres (D : nat) (tfit : arr -> option (list val) -> arr -> option (list val) -> res (arr -> res arr)) : Prop :=
  forall Xs ys Xt yt tr, tfit Xs ys Xt yt = Ok tr ->
  exists G out, coupling (repeat (/ INR (a_len Xs))%R (a_len Xs)) (repeat (/ INR (a_len Xt))%R (a_len Xt)) G /\
    tr Xs = Ok out /\ a_dt out = DFloat /\ a_tail out = a_tail Xs /\ a_len out = a_len Xs /\
    forall i, i < a_len Xs -> nth i (reals (a_rows out)) [] =
      map (fun k => msum (a_len Xt) (fun j => at2 G i j * nth k (nth j (reals (a_rows Xt)) []) 0) / msum (a_len Xt) (fun j => at2 G i j))%R (seq 0 D).

(** ** Barycentres *)
Lemma square_of_average m w a e : (forall j, j < m -> (0 <= w j)%R) -> msum m w = 1%R ->
  ((msum m (fun j => w j * a j) - e) * (msum m (fun j => w j * a j) - e) <= msum m (fun j => w j * ((a j - e) * (a j - e))))%R.
Proof.
  intros Hw H1. set (mu := msum m (fun j => w j * a j)%R).
  assert (E : msum m (fun j => w j * ((a j - e) * (a j - e)))%R = (msum m (fun j => w j * ((a j - mu) * (a j - mu))) + (mu - e) * (mu - e))%R).
  { rewrite (msum_ext m (fun j => w j * ((a j - e) * (a j - e)))%R (fun j => w j * ((a j - mu) * (a j - mu)) + (2 * (mu - e) * (w j * a j) + (e * e - mu * mu) * w j))%R) by (intros; ring).
    rewrite msum_plus, msum_plus, !msum_scal. fold mu. change (msum m (fun i => w i)) with (msum m w). rewrite H1. ring. }
  rewrite E. assert (0 <= msum m (fun j => w j * ((a j - mu) * (a j - mu))))%R; [|lra].
  apply msum_nonneg. intros j Hj. apply Rmult_le_pos; [auto|]. apply Rle_0_sqr.
Qed.
Lemma mean_at {A} (f : A -> R) (l : list A) d : mean (map f l) = (msum (length l) (fun i => f (nth i l d)) / INR (length l))%R.
Proof.
  unfold mean. rewrite map_length, ThmOrder2.msum_vsum. f_equal. f_equal.
  rewrite <- (map_map (fun i => nth i l d) f). f_equal. clear. induction l as [|x l IH]; [reflexivity|]. cbn [length seq map nth]. f_equal. rewrite <- seq_shift, map_map. exact IH.
Qed.

Section Moved.
  Variables (D n m : nat) (G : list (list R)) (S T : list (list R)).
  Hypothesis LS : length S = n.
  Hypothesis LT : length T = m.
  Hypothesis Hn : 0 < n.
  Hypothesis Hm : 0 < m.
  Hypothesis HG : coupling (repeat (/ INR n)%R n) (repeat (/ INR m)%R m) G.
  Hypothesis HS : forall i, i < n -> nth i S [] = map (fun k => msum m (fun j => at2 G i j * nth k (nth j T []) 0) / msum m (fun j => at2 G i j))%R (seq 0 D).

  Lemma pos_n : (0 < INR n)%R. Proof. apply lt_0_INR. exact Hn. Qed.
  Lemma pos_m : (0 < INR m)%R. Proof. apply lt_0_INR. exact Hm. Qed.
  Lemma nth_rep (a : R) k i : i < k -> nth i (repeat a k) 0%R = a.
  Proof. revert i; induction k; intros [|i] H; cbn; try lia; auto. apply IHk. lia. Qed.
  Lemma rows_G i : i < n -> msum m (fun j => at2 G i j) = (/ INR n)%R.
  Proof. intros H. destruct HG as (_ & _ & RS & _). rewrite !repeat_length in RS. rewrite (RS i H). now apply nth_rep. Qed.
  Lemma cols_G j : j < m -> msum n (fun i => at2 G i j) = (/ INR m)%R.
  Proof. intros H. destruct HG as (_ & _ & _ & CS). rewrite !repeat_length in CS. rewrite (CS j H). now apply nth_rep. Qed.
  Lemma G_nonneg i j : i < n -> j < m -> (0 <= at2 G i j)%R.
  Proof. intros Hi Hj. destruct HG as (_ & N & _). rewrite !repeat_length in N. now apply N. Qed.

  (** The shares of the targets in a moved source, and its reading. *)
  Definition share i j : R := (INR n * at2 G i j)%R.
  Lemma share_nonneg i j : i < n -> j < m -> (0 <= share i j)%R.
  Proof. intros Hi Hj. apply Rmult_le_pos; [apply Rlt_le, pos_n|now apply G_nonneg]. Qed.
  Lemma share_one i : i < n -> msum m (share i) = 1%R.
  Proof. intros H. unfold share. rewrite msum_scal. change (msum m (fun j => at2 G i j)) with (msum m (fun j => at2 G i j)). rewrite rows_G by auto. apply Rinv_r. pose proof pos_n. lra. Qed.
  Lemma share_col j : j < m -> msum n (fun i => share i j) = (INR n / INR m)%R.
  Proof. intros H. unfold share. rewrite msum_scal, cols_G by auto. reflexivity. Qed.
  Lemma reading_moved c i : i < n -> reading D c (nth i S []) = msum m (fun j => share i j * reading D c (nth j T []))%R.
  Proof.
    intros Hi. rewrite HS by auto. unfold reading.
    rewrite (msum_ext D _ (fun k => msum m (fun j => share i j * (c k * nth k (nth j T []) 0)))%R).
    - rewrite msum_swap. apply msum_ext. intros j _. now rewrite msum_scal.
    - intros k Hk. set (f := fun k : nat => (msum m (fun j => at2 G i j * nth k (nth j T []) 0) / msum m (fun j => at2 G i j))%R).
      rewrite (nth_indep _ 0%R (f 0)) by (now rewrite map_length, seq_length). rewrite map_nth, seq_nth by auto. cbn [plus]. unfold f.
      rewrite rows_G by auto. unfold share. pose proof pos_n.
      rewrite (msum_ext m (fun j => INR n * at2 G i j * (c k * nth k (nth j T []) 0))%R (fun j => (INR n * c k) * (at2 G i j * nth k (nth j T []) 0))%R) by (intros; ring).
      rewrite msum_scal. field. lra.
  Qed.

  Lemma moved_below c b : (forall x, In x T -> (reading D c x <= b)%R) -> forall x, In x S -> (reading D c x <= b)%R.
  Proof.
    intros H x Hx. apply (In_nth _ _ []) in Hx as (i & Hi & <-). rewrite LS in Hi. rewrite reading_moved by auto.
    apply Rle_trans with (msum m (fun j => share i j * b)%R).
    - apply SubProofs.msum_le. intros j Hj. apply Rmult_le_compat_l; [now apply share_nonneg|]. apply H, nth_In. now rewrite LT.
    - rewrite msum_scal_r. change (msum m (fun i0 => share i i0)) with (msum m (share i)). rewrite share_one by auto. lra.
  Qed.
  Lemma moved_mean c : mean (map (reading D c) S) = mean (map (reading D c) T).
  Proof.
    rewrite !(mean_at _ _ []), LS, LT. rewrite (msum_ext n _ (fun i => msum m (fun j => share i j * reading D c (nth j T [])))%R) by (intros; now apply reading_moved).
    rewrite msum_swap. rewrite (msum_ext m _ (fun j => (INR n / INR m) * reading D c (nth j T []))%R).
    - rewrite msum_scal. pose proof pos_n. pose proof pos_m. field. lra.
    - intros j Hj. rewrite msum_scal_r, share_col by auto. reflexivity.
  Qed.
  Lemma moved_spread c e : (mean (map (fun x => (reading D c x - e) * (reading D c x - e)) S) <= mean (map (fun x => (reading D c x - e) * (reading D c x - e)) T))%R.
  Proof.
    rewrite !(mean_at _ _ []), LS, LT. pose proof pos_n as Pn. pose proof pos_m as Pm.
    apply Rle_trans with (msum n (fun i => msum m (fun j => share i j * ((reading D c (nth j T []) - e) * (reading D c (nth j T []) - e)))) / INR n)%R.
    - unfold Rdiv. apply Rmult_le_compat_r; [left; now apply Rinv_0_lt_compat|]. apply SubProofs.msum_le. intros i Hi. rewrite reading_moved by auto.
      apply (square_of_average m (share i) (fun j => reading D c (nth j T [])) e); [intros; now apply share_nonneg|now apply share_one].
    - right. rewrite msum_swap. rewrite (msum_ext m _ (fun j => (INR n / INR m) * ((reading D c (nth j T []) - e) * (reading D c (nth j T []) - e)))%R).
      + rewrite msum_scal. field. lra.
      + intros j Hj. rewrite msum_scal_r, share_col by auto. reflexivity.
  Qed.
End Moved.

(** After fit_transform, for every linear reading of the features: no source reads more than all the targets (with -c, no less), the sources have the mean of
    the targets, and they are spread no more around any value. The targets are where they were. *)
Theorem C238_moved_among_targets : forall D tfit X y sda out, to_barycentres D tfit ->
  usable true (a_len X) sda -> table X -> (forall l, y = Some l -> length l = a_len X) ->
  let sd := eff_domain (a_len X) sda in some_label is_source sd -> some_label is_target sd ->
  ot_fit_transform tfit X y sda = Ok out ->
  let S := reals (rows_of is_source sd (a_rows out)) in let T := reals (rows_of is_target sd (a_rows X)) in
  length S = how_many is_source sd /\ rows_of is_target sd (a_rows out) = rows_of is_target sd (a_rows X) /\
  forall c, (forall b, (forall x, In x T -> (reading D c x <= b)%R) -> forall x, In x S -> (reading D c x <= b)%R) /\
    mean (map (reading D c) S) = mean (map (reading D c) T) /\
    forall e, (mean (map (fun x => (reading D c x - e) * (reading D c x - e)) S) <= mean (map (fun x => (reading D c x - e) * (reading D c x - e)) T))%R.
Proof.
  intros D tfit X y sda out HB U TX Hy sd Hs Ht E S T.
  destruct (C40_ot_fit_transform tfit X y sda U Hy) as (F1 & F2). fold sd in F1.
  assert (EF := E). unfold ot_fit_transform in EF. apply bind_ok in EF as (tr & Etr & _). rewrite (F2 tr Etr) in E. clear F2. rewrite F1 in Etr. clear F1.
  destruct (HB _ _ _ _ _ Etr) as (G & o & CP & Eo & Dt & Tl & Len & Bar). clear HB Etr.
  destruct (C40_ot_transform true tr X sda U TX) as (m' & Em & _ & Tg & Sr & _). { intros _. exists o. auto. }
  rewrite E in Em. injection Em as <-. fold sd in Tg, Sr.
  assert (LX : length (a_rows X) = length sd) by (symmetry; apply U).
  assert (Ls : a_len (half is_source sd X) = how_many is_source sd) by (unfold a_len, half; cbn [a_rows]; now apply rows_of_length).
  assert (Lt : a_len (half is_target sd X) = how_many is_target sd) by (unfold a_len, half; cbn [a_rows]; now apply rows_of_length).
  assert (ES : S = reals (a_rows o)) by (unfold S; rewrite (Sr Hs o Eo); reflexivity).
  assert (Pos : forall p, some_label p sd -> 0 < how_many p sd).
  { intros p (z & Hz & Pz). unfold how_many. destruct (filter p sd) as [|q l] eqn:Q; [|cbn; lia]. assert (In z (filter p sd)) as K by (now apply filter_In). rewrite Q in K. destruct K. }
  rewrite Ls, Lt in *.
  assert (LS : length S = how_many is_source sd) by (rewrite ES; unfold ThmRecal.reals; rewrite map_length; exact Len).
  assert (LT : length T = how_many is_target sd) by (unfold T, ThmRecal.reals; rewrite map_length; now apply rows_of_length).
  split; [exact LS|]. split; [exact Tg|]. intros c. rewrite <- ES in Bar. change (reals (a_rows (half is_target sd X))) with T in Bar.
  split; [|split].
  - exact (moved_below D _ _ G S T LS LT (Pos _ Hs) (Pos _ Ht) CP Bar c).
  - exact (moved_mean D _ _ G S T LS LT (Pos _ Hs) (Pos _ Ht) CP Bar c).
  - exact (moved_spread D _ _ G S T LS LT (Pos _ Hs) (Pos _ Ht) CP Bar c).
Qed.

(** Sources 0 and 1, targets 10, 16 and 13: the third target is shared. *)
Definition shared_plan : list (list R) := [[/3; 0; /6]; [0; /3; /6]]%R.
Definition tfit3 (Xs : arr) (_ : option (list val)) (Xt : arr) (_ : option (list val)) : res (arr -> res arr) :=
  if ThmRecal.arr_dec Xs (ThmRecal.col_of [0;1]%Z) then if ThmRecal.arr_dec Xt (ThmRecal.col_of [10;16;13]%Z) then Ok (fun _ => Ok (ThmRecal.col_of [11;15]%Z)) else Err ValueError else Err ValueError.
Example C238_ex : let X := ThmRecal.col_of [0;10;1;16;13]%Z in let sda := SDArr [1;-2;1;-2;-2]%Z in
  to_barycentres 1 tfit3 /\ usable true (a_len X) sda /\ table X /\ ot_fit_transform tfit3 X None sda = Ok (ThmRecal.col_of [11;10;15;16;13]%Z) /\
  mean [11; 15]%R = mean [10; 16; 13]%R.
Proof.
  intros X sda. split; [|split; [|split; [|split]]].
  - intros Xs ys Xt yt tr E. unfold tfit3 in E. destruct (ThmRecal.arr_dec _ _) as [->|]; [|discriminate E]. destruct (ThmRecal.arr_dec _ _) as [->|]; [|discriminate E]. injection E as <-.
    exists shared_plan, (ThmRecal.col_of [11;15]%Z). rewrite !ThmRecal.reals_col. cbn [map]. change (a_len (ThmRecal.col_of [0;1]%Z)) with 2. change (a_len (ThmRecal.col_of [10;16;13]%Z)) with 3. cbn [repeat].
    replace (/ INR 2)%R with (/ 2)%R by (cbn; field). replace (/ INR 3)%R with (/ 3)%R by (cbn; field). split; [|split; [reflexivity|split; [reflexivity|split; [reflexivity|split; [reflexivity|]]]]].
    + split; [split; [reflexivity|repeat constructor]|]. cbn [length]. split; [|split].
      * intros [|[|i]] [|[|[|j]]] Hi Hj; cbn; try lia; lra.
      * intros [|[|i]] Hi; cbn; try lia; lra.
      * intros [|[|[|i]]] Hi; cbn; try lia; lra.
    + intros [|[|i]] Hi; try lia; cbn; f_equal; field.
  - split; [cbn; lia|]. split; [reflexivity|discriminate].
  - split; [cbn; lia|]. discriminate.
  - assert (U : usable true (a_len X) sda) by (split; [cbn; lia|]; split; [reflexivity|discriminate]).
    destruct (C40_ot_fit_transform tfit3 X None sda U ltac:(discriminate)) as (F & G).
    assert (E : ot_fit tfit3 X None sda = Ok (fun _ => Ok (ThmRecal.col_of [11;15]%Z))).
    { rewrite F. unfold tfit3. change (half is_source _ X) with (ThmRecal.col_of [0;1]%Z). change (half is_target _ X) with (ThmRecal.col_of [10;16;13]%Z).
      destruct (ThmRecal.arr_dec _ _) as [_|N]; [|now destruct N]. destruct (ThmRecal.arr_dec _ _) as [_|N]; [|now destruct N]. reflexivity. }
    rewrite (G _ E). reflexivity.
  - unfold mean. cbn. field.
Qed.
