(** Proofs for the value of the contrastive domain discrepancy (C105). *)
From Coq Require Import String List ZArith Bool Arith Lia Reals Lra Permutation.
From Verif Require Import Np NpFacts RVec RVecFacts PDKernel LossModel LossSpec LossProofs CallModel CallProofs.
Import ListNotations.
Local Open Scope R_scope.

Lemma indicator_sum c : forall y, vsum (indicator y c) = INR (length (filter (fun k => Nat.eqb k c) y)).
Proof. induction y as [|k y IH]; [reflexivity|]. unfold indicator in *. cbn [map vsum filter]. rewrite IH. destruct (k =? c)%nat; cbn [length]; [rewrite S_INR; lra|lra]. Qed.
Lemma indicator_row (f : list R -> R) c : forall y xs, length y = length xs ->
  vsum (map2 Rmult (map f xs) (indicator y c)) = vsum (map f (of_class c y xs)).
Proof.
  unfold indicator, of_class. induction y as [|k y IH]; intros [|x xs] H; cbn in *; try lia; auto.
  rewrite IH by lia. destruct (k =? c)%nat; cbn; lra.
Qed.
Lemma indicator_col (f : list R -> R) c : forall y xs, length y = length xs ->
  vsum (map2 (fun a r => a * r) (indicator y c) (map f xs)) = vsum (map f (of_class c y xs)).
Proof.
  unfold indicator, of_class. induction y as [|k y IH]; intros [|x xs] H; cbn in *; try lia; auto.
  rewrite IH by lia. destruct (k =? c)%nat; cbn; lra.
Qed.
Lemma of_class_length c : forall y xs, length y = length xs -> length (of_class c y xs) = length (filter (fun k => Nat.eqb k c) y).
Proof. unfold of_class. induction y as [|k y IH]; intros [|x xs] H; cbn in *; try lia; auto. destruct (k =? c)%nat; cbn; rewrite IH; auto; lia. Qed.
Lemma of_class_map (f : list R -> nat) c : forall xs, of_class c (map f xs) xs = filter (fun x => Nat.eqb (f x) c) xs.
Proof. unfold of_class. induction xs as [|x xs IH]; cbn; auto. destruct (f x =? c)%nat; cbn; now rewrite IH. Qed.
Lemma of_class_In c y xs x : In x (of_class c y xs) -> In x xs.
Proof. unfold of_class. intros H. apply in_map_iff in H as ((k, z) & <- & H). apply filter_In in H as [H _]. now apply in_combine_r in H. Qed.
Lemma vsum_map_zero {A} (f : A -> R) : forall l, (forall x, In x l -> f x = 0) -> vsum (map f l) = 0.
Proof. intros l H. rewrite (vsum_ext f (fun _ => 0)); auto. apply vsum_zero. Qed.

Lemma same_value sg d y xs c : length y = length xs -> rect d xs ->
  same_term (gaussian_kernel sg xs xs) (indicator y c)
  = pair_sum (laplace_kernel sg) xs (of_class c y xs) / (INR (length (of_class c y xs)) * INR (length (of_class c y xs))).
Proof.
  intros L Rx. unfold same_term, gaussian_kernel, pair_sum. rewrite map_map, (of_class_length c y xs L), <- indicator_sum.
  assert (E : map (fun x => vsum (map2 Rmult (map (multi_kernel sg x) xs) (indicator y c))) xs = map (fun x => vsum (map (laplace_kernel sg x) (of_class c y xs))) xs).
  { apply map_ext_in. intros x Hx. rewrite indicator_row by auto. apply vsum_ext. intros z Hz. apply multi_laplace. rewrite (Rx x Hx), (Rx z); auto. eapply of_class_In; eauto. }
  rewrite E. destruct (Rltb 0 (vsum (indicator y c))) eqn:B; auto. apply Rltb_false in B.
  assert (Z : of_class c y xs = []).
  { apply length_zero_iff_nil. rewrite (of_class_length c y xs L). apply INR_eq. rewrite indicator_sum in B. pose proof (pos_INR (length (filter (fun k => Nat.eqb k c) y))). cbn [INR]. lra. }
  rewrite Z. rewrite vsum_map_zero by (intros; reflexivity). unfold Rdiv. ring.
Qed.
Lemma cross_value sg d y xs c1 yt xt c2 : length y = length xs -> length yt = length xt -> rect d xs -> rect d xt ->
  cross_term (gaussian_kernel sg xs xt) (indicator y c1) (indicator yt c2)
  = let n := INR (length (of_class c1 y xs)) * INR (length (of_class c2 yt xt)) in pair_sum (laplace_kernel sg) (of_class c1 y xs) (of_class c2 yt xt) / (n * n).
Proof.
  intros L L' Rx Rt. unfold cross_term, gaussian_kernel, pair_sum. cbv zeta. rewrite (of_class_length c1 y xs L), (of_class_length c2 yt xt L'), <- !indicator_sum.
  assert (E : vsum (map2 (fun a r => a * vsum (map2 Rmult r (indicator yt c2))) (indicator y c1) (map (fun x => map (multi_kernel sg x) xt) xs))
              = vsum (map (fun x => vsum (map (laplace_kernel sg x) (of_class c2 yt xt))) (of_class c1 y xs))).
  { rewrite <- (vsum_ext (fun x => vsum (map2 Rmult (map (multi_kernel sg x) xt) (indicator yt c2)))).
    - rewrite <- indicator_col by auto. f_equal. clear. revert xs. induction (indicator y c1) as [|a l IH]; intros [|x xs]; cbn; auto. now rewrite IH.
    - intros x Hx. apply of_class_In in Hx. rewrite indicator_row by auto. apply vsum_ext. intros z Hz. apply multi_laplace. rewrite (Rx x Hx), (Rt z); auto. eapply of_class_In; eauto. }
  rewrite E. destruct (Rltb 0 (vsum (indicator y c1) * vsum (indicator yt c2))) eqn:B; auto. apply Rltb_false in B.
  set (a := length (filter (fun k => Nat.eqb k c1) y)) in *. set (b := length (filter (fun k => Nat.eqb k c2) yt)) in *.
  assert (Z : of_class c1 y xs = [] \/ of_class c2 yt xt = []).
  { rewrite !indicator_sum in B. destruct (Nat.eq_dec (length (filter (fun k => Nat.eqb k c1) y)) 0) as [H|H].
    - left. apply length_zero_iff_nil. now rewrite (of_class_length c1 y xs L).
    - destruct (Nat.eq_dec (length (filter (fun k => Nat.eqb k c2) yt)) 0) as [H'|H'].
      + right. apply length_zero_iff_nil. now rewrite (of_class_length c2 yt xt L').
      + exfalso. apply not_0_INR in H, H'. pose proof (pos_INR (length (filter (fun k => Nat.eqb k c1) y))). pose proof (pos_INR (length (filter (fun k => Nat.eqb k c2) yt))). nra. }
  assert (V : vsum (map (fun x => vsum (map (laplace_kernel sg x) (of_class c2 yt xt))) (of_class c1 y xs)) = 0).
  { destruct Z as [-> | ->]; [reflexivity|]. apply vsum_map_zero. reflexivity. }
  rewrite V. unfold Rdiv. ring.
Qed.
Lemma discrepancy_pair sg d y xs T predict c1 c2 : length y = length xs -> rect d xs -> rect d T ->
  discrepancy sg y xs (map predict T) T c1 c2
  = cdd_pair (laplace_kernel sg) xs (of_class c1 y xs) T (filter (fun x => Nat.eqb (predict x) c2) T).
Proof.
  intros L Rx RT. unfold discrepancy. rewrite (same_value sg d) by auto. rewrite (same_value sg d (map predict T) T) by (auto; now rewrite map_length).
  rewrite (cross_value sg d) by (auto; now rewrite map_length). cbv zeta. rewrite of_class_map. reflexivity.
Qed.

(** The pairs (c1, c2) with c1 <= c2. *)
Lemma vsum_app a b : vsum (a ++ b) = vsum a + vsum b.
Proof. induction a; cbn; [lra|]. rewrite IHa. lra. Qed.
Lemma vsum_flat_map {A B} (f : B -> R) (g : A -> list B) : forall l, vsum (map f (flat_map g l)) = vsum (map (fun a => vsum (map f (g a))) l).
Proof. induction l as [|a l IH]; cbn; auto. now rewrite map_app, vsum_app, IH. Qed.
Lemma vsum_filter {A} (f : A -> R) (p : A -> bool) : forall l, vsum (map f (filter p l)) = vsum (map (fun x => if p x then f x else 0) l).
Proof. induction l as [|a l IH]; cbn; auto. destruct (p a); cbn; rewrite IH; lra. Qed.
Lemma filter_filter {A} (p q : A -> bool) : forall l, filter p (filter q l) = filter (fun x => q x && p x)%bool l.
Proof. induction l as [|a l IH]; cbn; auto. destruct (q a); cbn; rewrite ?IH; auto. Qed.
Lemma vsum_upto (f : nat -> R) n c : (c <= n)%nat -> vsum (map f (seq c (n - c))) = vsum (map (fun k => if (c <=? k)%nat then f k else 0) (seq 0 n)).
Proof.
  intros H. replace n with (c + (n - c))%nat at 2 by lia. rewrite seq_app, map_app, vsum_app. rewrite (vsum_map_zero _ (seq 0 c)).
  - rewrite Rplus_0_l, Nat.add_0_l. apply vsum_ext. intros k Hk. apply in_seq in Hk. now rewrite (proj2 (Nat.leb_le c k)) by lia.
  - intros k Hk. apply in_seq in Hk. now rewrite (proj2 (Nat.leb_gt c k)) by lia.
Qed.
Lemma vsum_pick (f : nat -> R) n c : (c < n)%nat -> vsum (map (fun k => if (c =? k)%nat then f k else 0) (seq 0 n)) = f c.
Proof.
  intros H. replace n with (c + (1 + (n - c - 1)))%nat by lia. rewrite !seq_app, !map_app, !vsum_app. cbn [seq map vsum]. rewrite Nat.add_0_l, Nat.eqb_refl.
  rewrite (vsum_map_zero _ (seq 0 c)), (vsum_map_zero _ (seq (c + 1) _)); [lra| |].
  - intros k Hk. apply in_seq in Hk. now rewrite (proj2 (Nat.eqb_neq c k)) by lia.
  - intros k Hk. apply in_seq in Hk. now rewrite (proj2 (Nat.eqb_neq c k)) by lia.
Qed.
Section Pairs.
  Variable n : nat.
  Variable ok : nat -> bool.
  Variable D : nat -> nat -> R.
  Local Notation pairs := (flat_map (fun c1 => map (fun c2 => (c1, c2)) (seq c1 (n - c1))) (seq 0 n)).
  Local Notation kept := (filter (fun p => ok (fst p) && ok (snd p))%bool pairs).
  Lemma intra_sum : vsum (map (fun p => D (fst p) (snd p)) (filter (fun p => fst p =? snd p)%nat kept)) = vsum (map (fun c => D c c) (filter ok (seq 0 n))).
  Proof.
    rewrite filter_filter, vsum_filter, vsum_flat_map, vsum_filter. apply vsum_ext. intros c Hc. apply in_seq in Hc. rewrite map_map. cbn [fst snd].
    rewrite vsum_upto by lia. rewrite (vsum_ext _ (fun k => if (c =? k)%nat then (fun k => if ok c && ok k then D c k else 0)%bool k else 0)).
    - rewrite (vsum_pick (fun k => if ok c && ok k then D c k else 0)%bool) by lia. destruct (ok c); reflexivity.
    - intros k _. destruct (Nat.eqb_spec c k) as [<-|Hk]; [rewrite Nat.leb_refl; now rewrite andb_true_r|]. rewrite andb_false_r. now destruct (c <=? k)%nat.
  Qed.
  Lemma inter_sum : vsum (map (fun p => D (fst p) (snd p)) (filter (fun p => negb (fst p =? snd p)%nat) kept))
    = vsum (map (fun c1 => vsum (map (D c1) (filter (fun c2 => ok c2 && (c1 <? c2)%nat)%bool (seq 0 n)))) (filter ok (seq 0 n))).
  Proof.
    rewrite filter_filter, vsum_filter, vsum_flat_map, vsum_filter. apply vsum_ext. intros c Hc. apply in_seq in Hc. rewrite map_map. cbn [fst snd].
    rewrite vsum_upto by lia. rewrite (vsum_filter (D c)). destruct (ok c) eqn:O; cbn [andb].
    - apply vsum_ext. intros k _. destruct (Nat.eqb_spec c k) as [<-|Hk]; [rewrite Nat.leb_refl, Nat.ltb_irrefl; cbn [negb]; now rewrite !andb_false_r|].
      cbn [negb]. rewrite andb_true_r. destruct (Nat.leb_spec c k); destruct (Nat.ltb_spec c k); try lia; now rewrite ?andb_true_r, ?andb_false_r.
    - apply vsum_map_zero. intros k _. now destruct (c <=? k)%nat.
  Qed.
End Pairs.

(** With a distance threshold above 1 every sample with a feature is kept. *)
Lemma dot_opp u : forall v, dot (map Ropp u) v = - dot u v.
Proof. unfold dot. induction u as [|a u IH]; intros [|b v]; cbn; try lra. rewrite IH. lra. Qed.
Lemma dot_opp_self u : dot (map Ropp u) (map Ropp u) = dot u u.
Proof. unfold dot. induction u as [|a u IH]; cbn; [lra|]. rewrite IH. lra. Qed.
Lemma confident_above dt centers x : 1 < dt -> confident dt centers x = true.
Proof.
  intros H. unfold confident. apply Rltb_iff.
  assert (C : forall u v, length u = length v -> -1 <= cosine u v).
  { intros u v L. unfold cosine. pose proof (Rmax_l (norm2 u) cos_eps). pose proof (Rmax_r (norm2 u) cos_eps). pose proof (Rmax_l (norm2 v) cos_eps). pose proof (Rmax_r (norm2 v) cos_eps).
    assert (0 < cos_eps) by (unfold cos_eps; lra). set (a := Rmax (norm2 u) cos_eps) in *. set (b := Rmax (norm2 v) cos_eps) in *.
    assert (B : - (a * b) <= dot u v).
    { pose proof (cauchy (map Ropp u) v ltac:(now rewrite map_length)) as A. rewrite dot_opp in A. replace (norm2 (map Ropp u)) with (norm2 u) in A by (unfold norm2; now rewrite dot_opp_self).
      assert (0 <= norm2 u) by (unfold norm2; apply sqrt_pos). assert (0 <= norm2 v) by (unfold norm2; apply sqrt_pos).
      assert (norm2 u * norm2 v <= a * b) by (apply Rmult_le_compat; lra). lra. }
    assert (P : 0 < a * b) by (apply Rmult_lt_0_compat; lra). apply (Rmult_le_reg_r (a * b)); auto. unfold Rdiv. rewrite Rmult_assoc, Rinv_l by lra. lra. }
  assert (M : -1 <= max_of (cdd_similarities x centers)).
  { destruct (cdd_similarities x centers) as [|a l] eqn:E; cbn; [lra|]. assert (Ha : -1 <= a).
    { assert (I : In a (cdd_similarities x centers)) by (rewrite E; now left). unfold cdd_similarities in I. apply in_map_iff in I as (j & <- & _). apply C. now rewrite repeat_length, column_length. }
    clear E. revert a Ha. induction l as [|b l IH]; intros a Ha; cbn; auto. apply IH. pose proof (Rmax_l a b). lra. }
  lra.
Qed.

Lemma bincount_nth labels n c : (0 < n)%nat -> (forall k, In k labels -> (k < n)%nat) -> (c < n)%nat ->
  length (bincount labels n) = n /\ nth c (bincount labels n) 0%nat = length (filter (Nat.eqb c) labels).
Proof.
  intros N0 H Hc. unfold bincount. set (m := Nat.max n _). assert (E : m = n).
  { unfold m. assert (F : (S (fold_right Nat.max 0 labels) <= n)%nat).
    { clear - H N0. induction labels as [|k l IH]; cbn [fold_right]; [lia|]. assert (k < n)%nat by (apply H; now left). assert (S (fold_right Nat.max 0%nat l) <= n)%nat by (apply IH; intros; apply H; now right). lia. }
    destruct (length labels =? 0)%nat; lia. }
  rewrite E, map_length, seq_length. split; auto.
  rewrite (nth_indep _ 0%nat (length (filter (Nat.eqb 0) labels))) by (rewrite map_length, seq_length; lia).
  rewrite (map_nth (fun c => length (filter (Nat.eqb c) labels))). now rewrite seq_nth by lia.
Qed.
Lemma filter_all {A} (p : A -> bool) : forall l, (forall x, In x l -> p x = true) -> filter p l = l.
Proof. induction l as [|a l IH]; intros H; cbn; auto. rewrite H by now left. f_equal. apply IH. intros; apply H; now right. Qed.
Lemma count_map (f : list R -> nat) c : forall l, length (filter (Nat.eqb c) (map f l)) = length (filter (fun x => Nat.eqb (f x) c) l).
Proof. induction l as [|a l IH]; cbn; auto. rewrite Nat.eqb_sym. destruct (f a =? c)%nat; cbn; now rewrite IH. Qed.

Lemma cdd_formula d y xs xt centers predict sg dt ct eps : (2 <= n_unique y)%nat -> length y = length xs -> rect d xs -> rect d xt ->
  (forall x, In x xt -> (predict x < n_unique y)%nat) -> (forall x, In x xt -> confident dt centers x = true) ->
  cdd_loss y xs xt (Some (centers, predict)) (Some sg) dt ct eps
  = Ok (cdd_value (laplace_kernel sg) (n_unique y) (fun c => ct <=? length (filter (fun x => Nat.eqb (predict x) c) xt))%nat y xs predict xt).
Proof.
  intros N2 L Rx Rt HP HC. unfold cdd_loss. cbv zeta. rewrite (filter_all _ xt HC). cbn [the_sigmas]. set (n := n_unique y) in *.
  assert (HL : forall k, In k (map predict xt) -> (k < n)%nat) by (intros k Hk; apply in_map_iff in Hk as (x & <- & Hx); auto).
  destruct (bincount_nth (map predict xt) n 0 ltac:(lia) HL ltac:(lia)) as [BL _].
  assert (BN : forall c, (c < n)%nat -> nth c (bincount (map predict xt) n) 0%nat = length (filter (fun x => Nat.eqb (predict x) c) xt)).
  { intros c Hc. destruct (bincount_nth (map predict xt) n c ltac:(lia) HL Hc) as [_ ->]. apply count_map. }
  set (cs := bincount (map predict xt) n) in *. clearbody cs. rewrite BL.
  set (ok := fun c => (ct <=? length (filter (fun x => Nat.eqb (predict x) c) xt))%nat).
  assert (FT : filter (fun x => (ct <=? nth (predict x) cs 0)%nat) xt = filter (fun x => ok (predict x)) xt).
  { apply filter_ext_in. intros x Hx. unfold ok. now rewrite BN by auto. }
  rewrite FT. set (T := filter (fun x => ok (predict x)) xt).
  assert (RT : rect d T) by (intros x Hx; apply filter_In in Hx as [Hx _]; auto).
  rewrite (proj2 (Nat.eqb_neq n 0)), (proj2 (Nat.eqb_neq n 1)) by lia. cbn [orb andb]. f_equal.
  set (pairs := flat_map (fun c1 => map (fun c2 => (c1, c2)) (seq c1 (n - c1))) (seq 0 n)).
  assert (KP : filter (fun p => (ct <=? nth (fst p) cs 0)%nat && (ct <=? nth (snd p) cs 0)%nat)%bool pairs = filter (fun p => ok (fst p) && ok (snd p))%bool pairs).
  { apply filter_ext_in. intros [c1 c2] Hp. unfold pairs in Hp. apply in_flat_map in Hp as (c & Hc & Hp). apply in_seq in Hc. apply in_map_iff in Hp as (c' & E & Hc'). apply in_seq in Hc'. injection E as <- <-.
    cbn [fst snd]. unfold ok. rewrite !BN by lia. reflexivity. }
  rewrite KP. unfold cdd_value. fold ok T. cbv zeta.
  pose proof (intra_sum n ok (discrepancy sg y xs (map predict T) T)) as I. cbv beta in I. fold pairs in I. rewrite I.
  pose proof (inter_sum n ok (discrepancy sg y xs (map predict T) T)) as J. cbv beta in J. fold pairs in J. rewrite J.
  replace (INR n * INR n - INR n) with (INR n * (INR n - 1)) by ring. unfold Rminus at 1. unfold Rminus at 2.
  f_equal; [|f_equal]; unfold Rdiv; f_equal.
  - apply vsum_ext. intros c _. now apply (discrepancy_pair sg d).
  - apply vsum_ext. intros c _. apply vsum_ext. intros c' _. now apply (discrepancy_pair sg d).
Qed.
