(** Facts about [RVec]. *)
From Coq Require Import List ZArith Bool Arith Lia Reals Lra.
From Verif Require Import Np NpFacts RVec.
Import ListNotations.
Local Open Scope R_scope.
Local Open Scope nat_scope.

Lemma Rleb_iff x y : Rleb x y = true <-> (x <= y)%R.
Proof. unfold Rleb. destruct (Rle_dec x y); split; auto; discriminate. Qed.
Lemma Rltb_iff x y : Rltb x y = true <-> (x < y)%R.
Proof. unfold Rltb. destruct (Rlt_dec x y); split; auto; discriminate. Qed.
Lemma Reqb_iff x y : Reqb x y = true <-> x = y.
Proof. unfold Reqb. destruct (Req_EM_T x y); split; auto; discriminate. Qed.
Lemma Rleb_false x y : Rleb x y = false <-> (y < x)%R.
Proof. unfold Rleb. destruct (Rle_dec x y); split; auto; try discriminate; intros; lra. Qed.
Lemma Rltb_false x y : Rltb x y = false <-> (y <= x)%R.
Proof. unfold Rltb. destruct (Rlt_dec x y); split; auto; try discriminate; intros; lra. Qed.
Lemma Reqb_false x y : Reqb x y = false <-> x <> y.
Proof. unfold Reqb. destruct (Req_EM_T x y); split; auto; try discriminate; intros; congruence. Qed.

Lemma map2_length {A B C} (f : A -> B -> C) u : forall v, length u = length v -> length (map2 f u v) = length u.
Proof. induction u; intros [|y v]; simpl; intros; try discriminate; auto. Qed.

Lemma map2_length_min {A B C} (f : A -> B -> C) u : forall v, length (map2 f u v) = Nat.min (length u) (length v).
Proof. induction u; intros [|y v]; simpl; intros; auto. Qed.

Lemma np_map2_ok {A B C} (f : A -> B -> C) u v w : np_map2 f u v = Ok w -> length u = length v /\ w = map2 f u v.
Proof. unfold np_map2. destruct (Nat.eqb_spec (length u) (length v)); [intros [= <-]; auto|discriminate]. Qed.
Lemma np_map2_eq {A B C} (f : A -> B -> C) u v : length u = length v -> np_map2 f u v = Ok (map2 f u v).
Proof. intros H. unfold np_map2. now rewrite H, Nat.eqb_refl. Qed.

Lemma nth_map2 (f : R -> R -> R) u : forall v i, length u = length v -> i < length u ->
  nth i (map2 f u v) 0%R = f (nth i u 0%R) (nth i v 0%R).
Proof.
  induction u as [|x u IH]; intros [|y v] i H Hi; simpl in *; try discriminate; [lia|].
  destruct i; auto. apply IH; lia.
Qed.

Lemma nth_map0 (f : R -> R) u i : i < length u -> nth i (map f u) 0%R = f (nth i u 0%R).
Proof. intros H. rewrite nth_indep with (d' := f 0%R) by (rewrite map_length; lia). apply map_nth. Qed.

Lemma nth_vscale a u i : nth i (vscale a u) 0%R = (a * nth i u 0)%R.
Proof.
  unfold vscale. destruct (Nat.lt_ge_cases i (length u)).
  - now apply nth_map0.
  - rewrite !nth_overflow; [lra|lia|rewrite map_length; lia].
Qed.

Lemma nth_vadd u v i : length u = length v -> nth i (vadd u v) 0%R = (nth i u 0 + nth i v 0)%R.
Proof.
  intros H. unfold vadd. destruct (Nat.lt_ge_cases i (length u)).
  - now apply nth_map2.
  - rewrite !nth_overflow; [lra|lia|lia|rewrite map2_length; lia].
Qed.

Lemma nth_vsub u v i : length u = length v -> nth i (vsub u v) 0%R = (nth i u 0 - nth i v 0)%R.
Proof.
  intros H. unfold vsub. destruct (Nat.lt_ge_cases i (length u)).
  - now apply nth_map2.
  - rewrite !nth_overflow; [lra|lia|lia|rewrite map2_length; lia].
Qed.

Lemma vscale_length a u : length (vscale a u) = length u.
Proof. apply map_length. Qed.
Lemma vadd_length u v : length u = length v -> length (vadd u v) = length u.
Proof. apply map2_length. Qed.
Lemma vsub_length u v : length u = length v -> length (vsub u v) = length u.
Proof. apply map2_length. Qed.

Lemma vsum_app u v : vsum (u ++ v) = (vsum u + vsum v)%R.
Proof. induction u; simpl; [lra|]. rewrite IHu. lra. Qed.
Lemma vsum_scale a u : vsum (vscale a u) = (a * vsum u)%R.
Proof. unfold vscale. induction u; simpl; [lra|]. rewrite IHu. lra. Qed.
Lemma vsum_add u : forall v, length u = length v -> vsum (vadd u v) = (vsum u + vsum v)%R.
Proof. unfold vadd. induction u; intros [|y v] H; simpl in *; try discriminate; [lra|]. rewrite IHu by lia. lra. Qed.
Lemma vsum_repeat a n : vsum (repeat a n) = (INR n * a)%R.
Proof. induction n; [simpl; lra|]. cbn [repeat vsum]. rewrite IHn, S_INR. lra. Qed.
Lemma vsum_nonneg u : Forall (fun x => 0 <= x)%R u -> (0 <= vsum u)%R.
Proof. induction 1; simpl; lra. Qed.
Lemma vsum_pos u : u <> [] -> Forall (fun x => 0 < x)%R u -> (0 < vsum u)%R.
Proof.
  intros Hn H. destruct H; [easy|]. simpl.
  assert (0 <= vsum l)%R by (apply vsum_nonneg; eapply Forall_impl; [|exact H0]; simpl; intros; lra). lra.
Qed.
Lemma vsum_le u : forall v, Forall2 Rle u v -> (vsum u <= vsum v)%R.
Proof. induction 1; simpl; lra. Qed.

Lemma vadd_cons a u b v : vadd (a :: u) (b :: v) = (a + b)%R :: vadd u v.
Proof. reflexivity. Qed.
Lemma vsub_cons a u b v : vsub (a :: u) (b :: v) = (a - b)%R :: vsub u v.
Proof. reflexivity. Qed.
Lemma vscale_cons a b v : vscale a (b :: v) = (a * b)%R :: vscale a v.
Proof. reflexivity. Qed.
Lemma dot_nil_r u : dot u [] = 0%R.
Proof. now destruct u. Qed.
Lemma dot_cons a u b v : dot (a :: u) (b :: v) = (a * b + dot u v)%R.
Proof. reflexivity. Qed.
Lemma dot_comm u : forall v, dot u v = dot v u.
Proof. induction u; intros [|y v]; auto. rewrite !dot_cons, IHu. lra. Qed.
Lemma dot_scale_r a u : forall v, dot u (vscale a v) = (a * dot u v)%R.
Proof. induction u; intros [|y v]; try (unfold dot; simpl; lra). rewrite vscale_cons, !dot_cons, IHu. lra. Qed.
Lemma dot_scale_l a u v : dot (vscale a u) v = (a * dot u v)%R.
Proof. rewrite dot_comm, dot_scale_r, dot_comm. reflexivity. Qed.
Lemma dot_add_r u : forall v w, length v = length w -> dot u (vadd v w) = (dot u v + dot u w)%R.
Proof.
  induction u as [|x u IH]; intros [|y v] [|z w] H; try discriminate; try (unfold dot; simpl; lra).
  rewrite vadd_cons, !dot_cons, IH by (simpl in H; lia). lra.
Qed.
Lemma dot_add_l u v w : length u = length v -> dot (vadd u v) w = (dot u w + dot v w)%R.
Proof. intros. now rewrite dot_comm, dot_add_r, (dot_comm w u), (dot_comm w v). Qed.
Lemma dot_sub_r u : forall v w, length v = length w -> dot u (vsub v w) = (dot u v - dot u w)%R.
Proof.
  induction u as [|x u IH]; intros [|y v] [|z w] H; try discriminate; try (unfold dot; simpl; lra).
  rewrite vsub_cons, !dot_cons, IH by (simpl in H; lia). lra.
Qed.
Lemma dot_sub_l u v w : length u = length v -> dot (vsub u v) w = (dot u w - dot v w)%R.
Proof. intros. now rewrite dot_comm, dot_sub_r, (dot_comm w u), (dot_comm w v). Qed.

Lemma dot_nonneg u : forall v, Forall (fun x => 0 <= x)%R u -> Forall (fun x => 0 <= x)%R v -> (0 <= dot u v)%R.
Proof.
  induction u; intros [|y v] Hu Hv; try (unfold dot; simpl; lra). rewrite dot_cons.
  apply Forall_cons_iff in Hu as [? Hu]. apply Forall_cons_iff in Hv as [? Hv].
  specialize (IHu v Hu Hv). assert (0 <= a * y)%R by (apply Rmult_le_pos; auto). lra.
Qed.

Lemma dot_ones u n : length u = n -> dot (repeat 1%R n) u = vsum u.
Proof. intros <-. induction u; auto. simpl repeat. rewrite dot_cons, IHu. simpl. lra. Qed.

Lemma dot_zeros_r u n : dot u (repeat 0%R n) = 0%R.
Proof.
  revert n. induction u; intros [|n]; try reflexivity.
  simpl repeat. rewrite dot_cons, IHu. lra.
Qed.

Lemma update_length {A} i (v : A) u : length (update i v u) = length u.
Proof. revert i. induction u; intros [|i]; simpl; auto. Qed.

Lemma dot_update_zeros u : forall n i a, i < n -> length u = n -> dot u (update i a (repeat 0%R n)) = (nth i u 0 * a)%R.
Proof.
  induction u as [|x u IH]; intros [|n] i a Hi H; simpl in H; try discriminate; [lia|].
  destruct i as [|i]; simpl repeat; cbn [update]; rewrite dot_cons.
  - rewrite dot_zeros_r. simpl. lra.
  - rewrite IH by lia. simpl. lra.
Qed.

Lemma Forall_nth_R (P : R -> Prop) u : Forall P u <-> (forall i, i < length u -> P (nth i u 0%R)).
Proof. rewrite Forall_nth. split; intros H i; intros; [now apply H|]. rewrite nth_indep with (d' := 0%R) by auto. now apply H. Qed.

(** argmin *)
Lemma argmin_aux_spec l : forall best bi k,
  let i := argmin_aux best bi k l in
  (i = bi /\ (forall j, j < length l -> (best <= nth j l 0)%R)) \/
  (exists j, i = k + j /\ j < length l /\ (nth j l 0 < best)%R /\
     (forall j', j' < length l -> (nth j l 0 <= nth j' l 0)%R) /\ (forall j', j' < j -> (nth j l 0 < nth j' l 0)%R)).
Proof.
  induction l as [|x l IH]; intros best bi k; simpl.
  - left. split; auto. intros; lia.
  - destruct (Rltb x best) eqn:E.
    + apply Rltb_iff in E. destruct (IH x k (S k)) as [[H1 H2]|(j & H1 & H2 & H3 & H4 & H5)].
      * right. exists 0. rewrite H1. repeat split; try lia; try lra.
        intros [|j'] Hj; simpl; [lra|]. apply H2. lia.
      * right. exists (S j). rewrite H1. simpl. repeat split; try lia; try lra.
        -- intros [|j'] Hj; [lra|]. apply H4. lia.
        -- intros [|j'] Hj; [lra|]. apply H5. lia.
    + apply Rltb_false in E. destruct (IH best bi (S k)) as [[H1 H2]|(j & H1 & H2 & H3 & H4 & H5)].
      * left. rewrite H1. split; auto. intros [|j'] Hj; [lra|]. apply H2. lia.
      * right. exists (S j). rewrite H1. simpl. repeat split; try lia; try lra.
        -- intros [|j'] Hj; [lra|]. apply H4. lia.
        -- intros [|j'] Hj; [lra|]. apply H5. lia.
Qed.

Lemma np_argmin_spec l i : np_argmin l = Ok i ->
  i < length l /\ (forall j, j < length l -> (nth i l 0 <= nth j l 0)%R) /\ (forall j, j < i -> (nth i l 0 < nth j l 0)%R).
Proof.
  destruct l as [|x l]; [discriminate|]. cbn [np_argmin]. intros [= <-].
  destruct (argmin_aux_spec l x 0 1) as [[H1 H2]|(j & H1 & H2 & H3 & H4 & H5)].
  - rewrite H1. simpl. repeat split; [lia| |intros; lia]. intros [|j] Hj; [lra|]. apply H2. lia.
  - rewrite H1. simpl. repeat split; [lia| |].
    + intros [|j'] Hj; [lra|]. apply H4. lia.
    + intros [|j'] Hj; [lra|]. apply H5. lia.
Qed.

Lemma np_argmin_total l : l <> [] -> exists i, np_argmin l = Ok i.
Proof. destruct l; [easy|]. eexists. reflexivity. Qed.

Lemma np_argmax_spec l i : np_argmax l = Ok i ->
  i < length l /\ (forall j, j < length l -> (nth j l 0 <= nth i l 0)%R) /\ (forall j, j < i -> (nth j l 0 < nth i l 0)%R).
Proof.
  intros H. apply np_argmin_spec in H as (H1 & H2 & H3). rewrite map_length in *. repeat split; auto.
  - intros j Hj. specialize (H2 j Hj). rewrite !nth_map0 in H2 by lia. lra.
  - intros j Hj. specialize (H3 j Hj). rewrite !nth_map0 in H3 by lia. lra.
Qed.

Lemma np_dot_ok u v r : np_dot u v = Ok r -> length u = length v /\ r = dot u v.
Proof. unfold np_dot. destruct (Nat.eqb_spec (length u) (length v)); [intros [= <-]; auto|discriminate]. Qed.
Lemma np_dot_eq u v : length u = length v -> np_dot u v = Ok (dot u v).
Proof. intros H. unfold np_dot. now rewrite H, Nat.eqb_refl. Qed.

Lemma np_matvec_ok M x r : np_matvec M x = Ok r -> Forall (fun row => length row = length x) M /\ r = matvec M x.
Proof.
  revert r. induction M as [|row M IH]; simpl; intros r H.
  - injection H as <-. auto.
  - apply bind_ok in H as [a [Ha H]]. apply bind_ok in H as [b [Hb H]]. injection H as <-.
    apply np_dot_ok in Ha as [? ->]. apply IH in Hb as [? ->]. auto.
Qed.
Lemma np_matvec_eq M x : Forall (fun row => length row = length x) M -> np_matvec M x = Ok (matvec M x).
Proof.
  induction 1 as [|row M Hr HM IH]; auto. unfold np_matvec in *. cbn [mapM]. rewrite np_dot_eq by auto. cbn [bind].
  rewrite IH. reflexivity.
Qed.
Lemma matvec_length M x : length (matvec M x) = length M.
Proof. apply map_length. Qed.

Lemma matvec_scale M a x : matvec M (vscale a x) = vscale a (matvec M x).
Proof. unfold matvec, vscale at 2. rewrite map_map. apply map_ext. intros. apply dot_scale_r. Qed.
Lemma matvec_add M x y : length x = length y -> matvec M (vadd x y) = vadd (matvec M x) (matvec M y).
Proof. intros H. induction M; simpl; auto. rewrite dot_add_r by auto. rewrite vadd_cons. now f_equal. Qed.
Lemma matvec_sub M x y : length x = length y -> matvec M (vsub x y) = vsub (matvec M x) (matvec M y).
Proof. intros H. induction M; simpl; auto. rewrite dot_sub_r by auto. rewrite vsub_cons. now f_equal. Qed.

Lemma vec_ext u v : length u = length v -> (forall i, i < length u -> nth i u 0%R = nth i v 0%R) -> u = v.
Proof. intros. now apply nth_ext with (d := 0%R) (d' := 0%R). Qed.

Lemma INR_above r : exists N, (r < INR N)%R.
Proof.
  exists (Z.to_nat (Z.max 0 (up r))). rewrite INR_IZR_INZ, Z2Nat.id by lia.
  destruct (archimed r) as [H _]. eapply Rlt_le_trans; [exact H|]. apply IZR_le. lia.
Qed.
