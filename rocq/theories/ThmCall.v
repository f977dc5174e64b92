(** Theorems on the callbacks, the spherical k-means, the domain classifier and SPA: C65, C66, C68, C69, C106-C110. *)
From Coq Require Import String List ZArith Bool Arith Lia Reals Lra.
From Verif Require Import Np NpFacts RVec RVecFacts LossModel LossSpec LossProofs ThmLoss CallModel CallSpec CallProofs.
Import ListNotations.
Local Open Scope nat_scope.

(** ** C65: the memory bank *)

(** REFUTED: the new features are never added; the stored ones only shrink. *)
Theorem C65_moving_average_refuted : exists momentum mem idx new mem', bank_update momentum mem idx new = Ok mem' /\ length idx = length new /\ NoDup idx /\
  ~ (forall k i f old, nth_error idx k = Some i -> nth_error new k = Some f -> nth_error mem i = Some old ->
       nth_error mem' i = Some (vadd (vscale (1 - momentum) old) (vscale momentum f))).
Proof.
  exists (1 / 2)%R, [[1%R]], [0], [[1%R]]. eexists. split; [reflexivity|]. split; [reflexivity|]. split; [repeat constructor; cbn; tauto|]. intros H.
  specialize (H 0 0 [1%R] [1%R] eq_refl eq_refl eq_refl). cbn in H. injection H. lra.
Qed.
(** For every history of batches: entry [i] is its first value times (1 - momentum) to the number of batches that contain [i]. *)
Theorem C65_decay : forall momentum batches mem mem', bank_run momentum mem batches = Ok mem' -> length mem' = length mem /\
  forall i r, nth_error mem i = Some r -> nth_error mem' i = Some (vscale ((1 - momentum) ^ visits i batches) r).
Proof. intros. now apply bank_run_spec. Qed.
Theorem C65_runs : forall momentum batches mem, (forall idx new i, In (idx, new) batches -> In i idx -> i < length mem) -> exists mem', bank_run momentum mem batches = Ok mem'.
Proof.
  intros m batches. induction batches as [|[idx new] batches IH]; intros mem H; [eexists; reflexivity|]. cbn. unfold bank_update. rewrite gather_total by (intros i Hi; eapply H; [left; reflexivity|exact Hi]). cbn.
  apply IH. intros idx' new' i H1 H2. rewrite scatter_length. eapply H; [right; exact H1|exact H2].
Qed.
(** The content of the bank does not depend on the features seen in training. *)
Theorem C65_ignores_features : forall momentum mem b1 b2, map fst b1 = map fst b2 -> bank_run momentum mem b1 = bank_run momentum mem b2.
Proof.
  intros m mem b1. revert mem. induction b1 as [|[i n] b1 IH]; intros mem [|[i' n'] b2] H; try discriminate; [reflexivity|]. cbn in H. injection H as -> H. cbn.
  unfold bank_update. destruct (gather mem i') as [old|]; [cbn|reflexivity]. now apply IH.
Qed.
Example C65_example : bank_run (1 / 2) [[4%R]; [1%R]; [8%R]] [([0; 2], [[1%R]; [1%R]]); ([2], [[7%R]])] = Ok [[2%R]; [1%R]; [2%R]].
Proof.
  destruct (C65_runs (1 / 2) [([0; 2], [[1%R]; [1%R]]); ([2], [[7%R]])] [[4%R]; [1%R]; [8%R]]) as (m & E).
  - intros idx new i [[= <- <-]|[[= <- <-]|[]]] Hi; cbn in *; lia.
  - rewrite E. f_equal. destruct (C65_decay _ _ _ _ E) as [L N]. assert (A := N 0 _ eq_refl). assert (B := N 1 _ eq_refl). assert (C := N 2 _ eq_refl).
    destruct m as [|a [|b [|c [|]]]]; try discriminate. cbn in A, B, C. injection A as ->. injection B as ->. injection C as ->. unfold vscale. cbn. repeat f_equal; field.
Qed.

(** ** C106: slots of the bank *)

Theorem C106_single_target : forall t sd, (t < 0)%Z -> (forall d, In d sd -> (d < 0)%Z -> d = t) ->
  target_numbers sd = seq 0 (length (filter (fun d => (d <? 0)%Z) sd)).
Proof. intros. now apply (target_numbers_single t). Qed.
(** REFUTED with two target domains: different samples share a slot and other slots are never used. *)
Theorem C106_shared_slot_refuted : exists sd, ~ NoDup (target_numbers sd) /\ exists slot, slot < length (filter (fun d => (d <? 0)%Z) sd) /\ ~ In slot (target_numbers sd).
Proof.
  exists [1; -2; -3]%Z. change (target_numbers [1; -2; -3]%Z) with [0; 0]. split.
  - intros H. inversion H. cbn in *. tauto.
  - exists 1. cbn. split; [lia|]. intros [H|[H|[]]]; discriminate.
Qed.
Example C106_example : target_numbers [1; -2; 1; -2; -2]%Z = [0; 1; 2].
Proof. rewrite (C106_single_target (-2)%Z); [reflexivity|lia|]. intros d H N. cbn in H. intuition lia. Qed.

(** ** C66: the default domain classifier *)

(** REFUTED: with one output the softmax is 1 for every parameter and input. *)
Theorem C66_constant_refuted : forall hidden W b x, length W = 1 -> length b = 1 -> domain_classifier hidden W b x = [1%R].
Proof.
  intros hidden [|w [|]] [|c [|]] x HW HB; try discriminate. unfold domain_classifier, softmax. cbn. f_equal. rewrite Rplus_0_r. apply Rinv_r. pose proof (exp_pos (dot w (hidden x) + c)). lra.
Qed.
(** Hence the default adversarial loss is the constant 100. *)
Theorem C66_dann_constant : forall hidden W b xs xt, length W = 1 -> length b = 1 -> xs <> [] -> xt <> [] ->
  dann_loss bce_loss (concat (map (domain_classifier hidden W b) xs)) (concat (map (domain_classifier hidden W b) xt)) = Ok 100%R.
Proof.
  intros hidden W b xs xt HW HB Ns Nt.
  assert (E : forall l, concat (map (domain_classifier hidden W b) l) = repeat 1%R (length l)).
  { intros l. induction l as [|x l IH]; [reflexivity|]. cbn [map concat]. rewrite C66_constant_refuted by auto. cbn. now rewrite IH. }
  rewrite !E. unfold dann_loss, bce_loss. rewrite !repeat_length. rewrite !np_map2_eq by (now rewrite !repeat_length). cbn [bind].
  assert (R2 : forall (f : R -> R -> R) a c n, map2 f (repeat a n) (repeat c n) = repeat (f a c) n) by (intros f a c n; induction n; cbn; [auto|now rewrite IHn]). rewrite !R2.
  assert (MR : forall a n, 0 < n -> mean (repeat a n) = a). { intros a n Hn. unfold mean. rewrite vsum_repeat, repeat_length. field. apply not_0_INR. lia. }
  rewrite !MR by (destruct xs, xt; try congruence; cbn; lia). f_equal. unfold bce, clamped_log.
  assert (O : Rltb 0 1 = true) by (apply Rltb_iff; lra). replace (1 - 1)%R with 0%R by ring. assert (O' : Rltb 0 0 = false) by (apply Rltb_false; lra). rewrite O, O', ln_1. rewrite Rmax_left by lra. ring.
Qed.
(** With two outputs the classifier can separate any two inputs its hidden layer separates. *)
Theorem C66_two_outputs : forall (hidden : list R -> list R) x x' j, length (hidden x) = length (hidden x') -> nth j (hidden x) 0%R <> nth j (hidden x') 0%R ->
  exists W b, length W = 2 /\ length b = 2 /\ domain_classifier hidden W b x <> domain_classifier hidden W b x'.
Proof.
  intros hidden x x' j L N. set (n := length (hidden x)) in *. assert (Hj : j < n). { destruct (Nat.lt_ge_cases j n); auto. exfalso. apply N. rewrite !nth_overflow; auto; lia. }
  set (w := map (fun k => if k =? j then 1%R else 0%R) (seq 0 n)).
  assert (D : forall h, length h = n -> dot w h = nth j h 0%R).
  { unfold w. clearbody n. clear - Hj. intros h Hh. assert (G : forall h s, dot (map (fun k => if k =? j then 1%R else 0%R) (seq s (length h))) h = if (s <=? j) then nth (j - s) h 0%R else 0%R).
    { clear. induction h as [|a h IH]; intros s; [cbn; destruct (s <=? j), (j - s); reflexivity|]. cbn [length seq map]. rewrite dot_cons, IH.
      destruct (Nat.eqb_spec s j) as [->|N]; [rewrite Nat.leb_refl, (proj2 (Nat.leb_gt (S j) j)), Nat.sub_diag by lia; cbn; ring|].
      destruct (Nat.leb_spec (S s) j); [rewrite (proj2 (Nat.leb_le s j)) by lia; replace (j - s) with (S (j - S s)) by lia; cbn; ring|rewrite (proj2 (Nat.leb_gt s j)) by lia; ring]. }
    rewrite <- Hh, G. cbn. now rewrite Nat.sub_0_r. }
  exists [w; repeat 0%R n], [0%R; 0%R]. repeat split; auto. unfold domain_classifier, softmax. cbn. intros E. injection E as E _. rewrite !D in E by auto.
  rewrite !(dot_comm (repeat 0%R n)), !dot_repeat0 in E. rewrite !Rplus_0_r, exp_0 in E. set (a := exp (nth j (hidden x) 0%R)) in *. set (c := exp (nth j (hidden x') 0%R)) in *.
  assert (PA : (0 < a)%R) by apply exp_pos. assert (PC : (0 < c)%R) by apply exp_pos. apply N. apply exp_inv. fold a c.
  assert (F : (a * (c + 1) = c * (a + 1))%R). { apply (f_equal (fun z => z * ((a + 1) * (c + 1)))%R) in E. field_simplify in E; lra. } lra.
Qed.
Example C66_example : domain_classifier (fun x => x) [[3; -2]]%R [5%R] [7%R; 1%R] = [1%R] /\ domain_classifier (fun x => x) [[3; -2]]%R [5%R] [-7; 100]%R = [1%R].
Proof. split; now apply C66_constant_refuted. Qed.

(** ** C69: the schedules of SPA *)

Theorem C69_first_fit : forall m n s, fst (count_fits [n] (mkCount m 0)) = [seq 1 n] /\ c_crit (snd (count_fits (s ++ [n]) (mkCount m 0))) = fold_right Nat.add n s.
Proof.
  intros m n s. split; [cbn; now rewrite count_fit_spec|]. assert (G : forall s st, c_crit (snd (count_fits (s ++ [n]) st)) = c_crit st + fold_right Nat.add n s).
  { clear. induction s as [|k s IH]; intros st; cbn [app count_fits]; rewrite count_fit_spec.
    - cbn. lia.
    - specialize (IH (mkCount 0 (c_crit st + k))). destruct (count_fits (s ++ [n]) _) as [ls s'']. cbn in *. lia. }
  rewrite G. reflexivity.
Qed.
Lemma exp_decr a b : (a <= b)%R -> (exp (- b) <= exp (- a))%R.
Proof. intros [H| ->]; [left; apply exp_increasing; lra|lra]. Qed.
Theorem C69_ranges : forall max n n', 1 <= n <= n' -> n' <= max ->
  (0 <= scheduler_adv n max <= scheduler_adv n' max)%R /\ (scheduler_adv n' max < 1)%R /\ (0 <= scheduler_nap n max <= scheduler_nap n' max)%R /\ (scheduler_nap n' max <= 1)%R.
Proof.
  intros max n n' H Hm. assert (M : (0 < INR max)%R) by (apply lt_0_INR; lia). assert (A : (0 <= INR n)%R) by apply pos_INR. assert (B : (INR n <= INR n')%R) by (apply le_INR; lia). assert (C : (INR n' <= INR max)%R) by (apply le_INR; lia).
  assert (I : (0 < / INR max)%R) by (now apply Rinv_0_lt_compat). unfold scheduler_adv, scheduler_nap.
  assert (Q0 : (0 <= INR n / INR max)%R) by (apply Rmult_le_pos; lra). assert (Q1 : (INR n / INR max <= INR n' / INR max)%R) by (apply Rmult_le_compat_r; lra).
  assert (Q2 : (INR n' / INR max <= 1)%R) by (apply Rmult_le_reg_r with (INR max); auto; unfold Rdiv; rewrite Rmult_assoc, Rinv_l; lra).
  replace (-10 * INR n / INR max)%R with (- (10 * (INR n / INR max)))%R by (field; lra). replace (-10 * INR n' / INR max)%R with (- (10 * (INR n' / INR max)))%R by (field; lra).
  set (a := exp (- (10 * (INR n / INR max)))) in *. set (b := exp (- (10 * (INR n' / INR max)))) in *.
  assert (Pb : (0 < b)%R) by apply exp_pos. assert (Lab : (b <= a)%R) by (apply exp_decr; lra). assert (La : (a <= 1)%R). { rewrite <- exp_0, <- Ropp_0. apply exp_decr. lra. }
  assert (Ia : (1 / 2 <= / (1 + a))%R). { unfold Rdiv. rewrite Rmult_1_l. apply Rinv_le_contravar; lra. }
  assert (Ib : (/ (1 + a) <= / (1 + b))%R) by (apply Rinv_le_contravar; lra). assert (Jb : (/ (1 + b) < 1)%R). { rewrite <- Rinv_1 at 2. apply Rinv_lt_contravar; lra. }
  unfold Rdiv in *. repeat split; lra.
Qed.
(** REFUTED: a second fit goes on counting; the weight of the pseudo-labels reaches 2. *)
Theorem C69_restart_refuted : forall max, 1 <= max -> exists second epoch, fst (count_fits [max; max] (mkCount 0 0)) = [seq 1 max; second] /\ In epoch second /\ scheduler_nap epoch max = 2%R.
Proof.
  intros max H. exists (seq (S max) max), (max + max). cbn. rewrite !count_fit_spec. cbn. split; [reflexivity|]. split; [apply in_seq; lia|].
  unfold scheduler_nap. rewrite plus_INR. field. apply not_0_INR. lia.
Qed.
Example C69_example : fst (count_fits [3] (mkCount 0 0)) = [[1; 2; 3]] /\ scheduler_nap 3 3 = 1%R.
Proof. split; [reflexivity|]. unfold scheduler_nap. field. apply not_0_INR. lia. Qed.

(** ** C68: spherical k-means keeps the best run *)

Theorem C68_best_run : forall K d max_iter tol X inits f, kmeans_fit K d max_iter tol X None inits = Ok f ->
  exists runs i c n, mapM (run_single K d max_iter tol (map normalise X)) inits = Ok runs /\ nth_error runs i = Some (f_inertia f, f_centers f, n) /\ c = f_centers f /\ f_n_iter f = n + 1 /\
    forall j ij cj nj, nth_error runs j = Some (ij, cj, nj) -> (f_inertia f <= ij)%R /\ (j < i -> (f_inertia f < ij)%R).
Proof.
  intros K d max_iter tol X inits f H. unfold kmeans_fit in H. destruct (best_of (run_single K d max_iter tol (map normalise X)) inits None) as [best|] eqn:B; [|discriminate]. cbn in H.
  apply best_of_spec in B as (runs & M & Q). destruct best as [[[i0 c0] n0]|]; [|discriminate]. injection H as <-. destruct Q as [[_ Q]|(i & b & E & N & F)]; [discriminate|]. injection E as <-.
  exists runs, i, c0, n0. cbn. repeat split; auto; intros; destruct (F j _ H) as [A B]; cbn in *; auto.
Qed.
(** Every run: at most [max_iter] iterations; it stops when an update changes the centroids by no more than the tolerance, or at the end. *)
Theorem C68_run : forall K d max_iter tol X cents i c n, run_single K d max_iter tol X cents = Ok (i, c, n) ->
  n + 1 <= max_iter /\ exists labels prev, mapM (closest prev) X = Ok labels /\ i = inertia_of X c labels /\
    ((c = prev /\ allclose tol c (update K d labels X c) = true) \/ (n + 1 = max_iter /\ c = update K d labels X prev)).
Proof.
  intros K d max_iter tol X cents i c n H. unfold run_single in H. destruct (kloop K d tol X max_iter 0 cents None) as [[c' r]|] eqn:E; [|discriminate]. cbn in H.
  destruct r as [[labels m]|]; [|discriminate]. injection H as <- <- <-. apply kloop_spec in E as [(_ & _ & E)|(P & ls & m' & prev & E & B & M & O)]; [discriminate|]. injection E as <- <-.
  split; [lia|]. exists labels, prev. repeat split; auto. destruct O as [O|[O1 O2]]; auto. right. split; auto; lia.
Qed.
(** In coordinates: if a run stops before max_iter, no centre is further from the sum of its samples than the tolerance. *)
Theorem C68_tolerance : forall K d max_iter tol X cents i c n, run_single K d max_iter tol X cents = Ok (i, c, n) -> n + 1 < max_iter ->
  exists labels, mapM (closest c) X = Ok labels /\ forall k j, k < length c -> k < K ->
    let new := vsum_rows d (map snd (filter (fun p => fst p =? k) (combine labels X))) in
    j < length (nth k c []) -> j < length new ->
    (Rabs (nth j (nth k c []) 0 - nth j new 0) <= tol + / 10 ^ 5 * Rabs (nth j new 0))%R.
Proof.
  intros K d max_iter tol X cents i c n H L. destruct (C68_run _ _ _ _ _ _ _ _ _ H) as (_ & labels & prev & M & _ & [[E A]|[E _]]); [|lia]. subst prev.
  exists labels. split; [exact M|]. intros k j Hk HK new Hj Hn.
  assert (Hu : nth_error (update K d labels X c) k = Some new).
  { unfold update. rewrite nth_error_map. rewrite (nth_error_nth' (seq 0 (length c)) 0) by (rewrite seq_length; exact Hk). cbn [option_map]. rewrite seq_nth by exact Hk.
    cbn [Nat.add]. rewrite (proj2 (Nat.ltb_lt k K) HK). reflexivity. }
  unfold allclose in A. rewrite forallb_forall in A.
  assert (CI : forall (B C : Type) (u : list B) (v : list C) p a b, nth_error u p = Some a -> nth_error v p = Some b -> In (a, b) (combine u v)).
  { induction u as [|x u IH]; intros [|y v] [|p] a b Ha Hb; try discriminate; cbn in *.
    - left. congruence.
    - right. eapply IH; eassumption. }
  specialize (A (nth k c [], new) (CI _ _ _ _ k _ _ (nth_error_nth' c [] Hk) Hu)). cbn [fst snd] in A. rewrite forallb_forall in A.
  specialize (A (nth j (nth k c []) 0%R, nth j new 0%R) (CI _ _ _ _ j _ _ (nth_error_nth' _ 0%R Hj) (nth_error_nth' _ 0%R Hn))). cbn [fst snd] in A.
  unfold close1 in A. apply Rleb_iff in A. unfold Rdiv in A. rewrite Rmult_1_l in A. exact A.
Qed.
Theorem C68_iterations : forall K d max_iter tol X initial inits f, kmeans_fit K d max_iter tol X initial inits = Ok f -> 1 <= f_n_iter f <= max_iter.
Proof.
  intros K d max_iter tol X initial inits f H.
  assert (G : forall cents i c n, run_single K d max_iter tol (map normalise X) cents = Ok (i, c, n) -> n + 1 <= max_iter) by (intros cents i c n R; now apply C68_run in R).
  destruct initial as [c0|].
  - unfold kmeans_fit in H. destruct (run_single K d max_iter tol (map normalise X) c0) as [[[i c] n]|] eqn:R; [|discriminate]. injection H as <-. apply G in R. cbn. lia.
  - apply C68_best_run in H as (runs & i & c & n & M & N & _ & E & _). destruct (mapM_nth _ _ _ M) as [L P]. destruct (nth_error inits i) as [c0|] eqn:I.
    + destruct (P i c0 I) as (y & Ey & Ny). rewrite N in Ny. injection Ny as <-. apply G in Ey. lia.
    + apply nth_error_None in I. assert (i < length runs) by (apply nth_error_Some; congruence). lia.
Qed.
(** Degenerate settings fail. *)
Theorem C68_degenerate : forall K d tol X max_iter c inits, kmeans_fit K d 0 tol X (Some c) inits = Err UnboundLocalError /\ kmeans_fit K d 0 tol X None (c :: inits) = Err UnboundLocalError
  /\ kmeans_fit K d max_iter tol X None [] = Err TypeError.
Proof. intros. repeat split. Qed.

(** ** C107: k-means descends *)

Theorem C107_descent : forall K d max_iter tol X cents i c n, 1 <= max_iter -> rect d X -> (forall x, In x X -> unit x) -> not_tiny d X -> rect d cents -> length cents <= K ->
  run_single K d max_iter tol X cents = Ok (i, c, n) -> exists labels, mapM (closest cents) X = Ok labels /\ (i <= inertia_of X cents labels)%R.
Proof.
  intros K d max_iter tol X cents i c n HM HX HU NT HC HK H. unfold run_single in H. destruct max_iter as [|fuel]; [lia|]. destruct (kloop K d tol X (S fuel) 0 cents None) as [[c' r]|] eqn:E; [|discriminate]. cbn in H.
  destruct r as [[labels m]|]; [|discriminate]. injection H as <- <- <-. now apply (kloop_descent K d tol X HX HU NT fuel 0 cents None c' labels m).
Qed.
(** Each of the two half-steps of an iteration does not increase the inertia. *)
Theorem C107_steps : forall K d X cents labels other, rect d X -> (forall x, In x X -> unit x) -> not_tiny d X -> rect d cents -> length cents <= K ->
  mapM (closest cents) X = Ok labels -> length other = length X -> (forall l, In l other -> l < length cents) ->
  (inertia_of X cents labels <= inertia_of X cents other)%R /\ (inertia_of X (update K d labels X cents) labels <= inertia_of X cents labels)%R.
Proof.
  intros K d X cents labels other HX HU NT HC HK H LO BO. destruct (closest_labels _ _ _ H) as (A & B & C). split; [now apply C|]. now apply update_descent.
Qed.
(** inertia_ is the sum of the dissimilarities of the (normalised) samples to their closest centre when the run stopped by convergence. *)
Theorem C107_inertia_converged : forall K d max_iter tol X c0 inits f, kmeans_fit K d max_iter tol X (Some c0) inits = Ok f -> f_n_iter f < max_iter ->
  exists labels, kmeans_predict f (map normalise X) = Ok labels /\ f_inertia f = inertia_of (map normalise X) (f_centers f) labels.
Proof.
  intros K d max_iter tol X c0 inits f H L. unfold kmeans_fit in H. destruct (run_single K d max_iter tol (map normalise X) c0) as [[[i c] n]|] eqn:E; [|discriminate]. injection H as <-. cbn in *.
  apply C68_run in E as (_ & labels & prev & M & -> & [[-> _]|[O _]]); [|lia]. exists labels. auto.
Qed.
(** Predictions on the samples and on the normalised samples agree. *)
Theorem C107_predict_scale : forall f x, (cos_eps <= norm2 x)%R -> closest (f_centers f) (normalise x) = closest (f_centers f) x.
Proof.
  intros f x H. unfold closest. f_equal. apply map_ext. intros c. unfold dissim. f_equal. f_equal. pose proof cos_eps_pos. assert (E : normalise x = vscale (/ norm2 x) x) by (unfold normalise, vscale; apply map_ext; intros; unfold Rdiv; ring).
  rewrite E. unfold cosine. rewrite dot_scale_l. assert (N : norm2 (vscale (/ norm2 x) x) = 1%R).
  { unfold norm2 at 1. rewrite dot_scale_l, dot_scale_r, <- norm_sq. replace (/ norm2 x * (/ norm2 x * (norm2 x * norm2 x)))%R with 1%R by (field; lra). apply sqrt_1. }
  rewrite N. rewrite (Rmax_left 1), (Rmax_left (norm2 x)) by (try exact H; unfold cos_eps; lra). pose proof (Rmax_r (norm2 c) cos_eps). field. split; lra.
Qed.
Lemma argmin2 a b : (a <= b)%R -> np_argmin [a; b] = Ok 0.
Proof. intros H. cbn. now rewrite (proj2 (Rltb_false b a) H). Qed.
Lemma argmin2' a b : (b < a)%R -> np_argmin [a; b] = Ok 1.
Proof. intros H. cbn. now rewrite (proj2 (Rltb_iff b a) H). Qed.
Lemma norm2_eq x a : (0 <= a)%R -> (dot x x = a * a)%R -> norm2 x = a.
Proof. intros H E. unfold norm2. rewrite E. now apply sqrt_square. Qed.
Lemma cosine_eq x c a b : (cos_eps <= a)%R -> (cos_eps <= b)%R -> (dot x x = a * a)%R -> (dot c c = b * b)%R -> cosine x c = (dot x c / (a * b))%R.
Proof. intros A B Ea Eb. pose proof cos_eps_pos. unfold cosine. rewrite (norm2_eq x a), (norm2_eq c b) by (auto; lra). now rewrite !Rmax_left. Qed.

Lemma cosine_1q x c q : (cos_eps <= q)%R -> (dot x x = 1)%R -> (dot c c = q * q)%R -> cosine x c = (dot x c * / q)%R.
Proof. intros A B C. rewrite (cosine_eq x c 1 q); auto; [|unfold cos_eps; lra|lra]. unfold Rdiv. now rewrite Rmult_1_l. Qed.
Lemma cosine_11 x c : (dot x x = 1)%R -> (dot c c = 1)%R -> cosine x c = dot x c.
Proof. intros B C. rewrite (cosine_1q x c 1); auto; [|unfold cos_eps; lra|lra]. rewrite Rinv_1. ring. Qed.
(** REFUTED otherwise: with max_iter = 1 the centroids are updated after the labels, and inertia_ is not the sum of the
    dissimilarities to the closest centres. *)
Definition km_a : list R := [4 / 5; 3 / 5]%R.
Definition km_b : list R := [4 / 5; - (3 / 5)]%R.
Definition km_c : list R := [3 / 5; 4 / 5]%R.
Definition km_X : list (list R) := [km_a; km_b; km_b; km_b; km_c].
Definition km_init : list (list R) := [[1; 0]; [0; 1]]%R.
Theorem C107_inertia_refuted : exists f labels, kmeans_fit 2 2 1 (1 / 10 ^ 4) km_X (Some km_init) [] = Ok f /\ kmeans_predict f (map normalise km_X) = Ok labels /\
  f_inertia f <> inertia_of (map normalise km_X) (f_centers f) labels.
Proof.
  assert (NN : map normalise km_X = km_X).
  { assert (U : forall x, dot x x = 1%R -> normalise x = x). { intros x H. unfold normalise. rewrite (norm2_eq x 1) by lra. rewrite <- (map_id x) at 2. apply map_ext. intros. field. }
    unfold km_X. cbn [map]. rewrite !U by (unfold km_a, km_b, km_c, dot; cbn; lra). reflexivity. }
  assert (CE : (cos_eps <= 1)%R) by (unfold cos_eps; lra). assert (D1 : forall x, In x km_X -> dot x x = 1%R) by (intros x H; cbn in H; decompose [or] H; try contradiction; subst x; unfold km_a, km_b, km_c, dot; cbn; lra).
  assert (L0 : mapM (closest km_init) km_X = Ok [0; 0; 0; 0; 1]).
  { assert (A : closest km_init km_a = Ok 0). { unfold closest, km_init. cbn [map]. apply argmin2. unfold dissim. rewrite !cosine_11; try (unfold km_a, dot; cbn; lra). }
    assert (B : closest km_init km_b = Ok 0). { unfold closest, km_init. cbn [map]. apply argmin2. unfold dissim. rewrite !cosine_11; try (unfold km_b, dot; cbn; lra). }
    assert (C : closest km_init km_c = Ok 1). { unfold closest, km_init. cbn [map]. apply argmin2'. unfold dissim. rewrite !cosine_11; try (unfold km_c, dot; cbn; lra). }
    unfold km_X. cbn [mapM]. rewrite A, B, C. reflexivity. }
  set (S0 := vsum_rows 2 [km_a; km_b; km_b; km_b]). set (S1 := vsum_rows 2 [km_c]).
  assert (UP : update 2 2 [0; 0; 0; 0; 1] km_X km_init = [S0; S1]) by reflexivity.
  assert (E0 : S0 = [16 / 5; - (6 / 5)]%R) by (unfold S0, vsum_rows, km_a, km_b, vadd; cbn; f_equal; [field|f_equal; field]). assert (E1 : S1 = km_c) by (unfold S1, vsum_rows, km_c, vadd; cbn; f_equal; [field|f_equal; field]).
  assert (NC : allclose (1 / 10 ^ 4) km_init [S0; S1] = false).
  { rewrite E0. unfold allclose, km_init. cbn [combine forallb fst snd]. unfold close1 at 1. replace (Rleb (Rabs (1 - 16 / 5)) (1 / 10 ^ 4 + 1 / 10 ^ 5 * Rabs (16 / 5))) with false; [reflexivity|]. symmetry.
    unfold Rleb. destruct (Rle_dec _ _) as [H|H]; [exfalso|reflexivity]. rewrite Rabs_left, Rabs_right in H by lra. lra. }
  set (q := norm2 S0). assert (Q : (17 / 5 < q)%R). { unfold q, norm2. rewrite E0. apply Rsqr_incrst_0; [|lra|apply sqrt_pos]. unfold Rsqr. rewrite sqrt_sqrt; unfold dot; cbn; lra. }
  assert (QQ : (dot S0 S0 = q * q)%R) by (symmetry; apply norm_sq). assert (QC : (cos_eps <= q)%R) by lra.
  eexists. exists [1; 0; 0; 0; 1]. split; [|split].
  - unfold kmeans_fit, run_single. rewrite NN. cbn [kloop bind]. rewrite L0. cbn [bind]. rewrite UP, NC. cbn [bind]. reflexivity.
  - unfold kmeans_predict. rewrite NN. cbn [f_centers]. rewrite E1.
    assert (IQ : (0 < / q <= 5 / 17)%R). { split; [apply Rinv_0_lt_compat; lra|]. replace (5 / 17)%R with (/ (17 / 5))%R by field. apply Rinv_le_contravar; lra. }
    assert (A : closest [S0; km_c] km_a = Ok 1). { unfold closest. cbn [map]. apply argmin2'. unfold dissim. rewrite (cosine_1q km_a S0 q), (cosine_11 km_a km_c); auto; try (apply D1; cbn; auto 10). rewrite E0. unfold km_a, km_c, dot; cbn. lra. }
    assert (B : closest [S0; km_c] km_b = Ok 0). { unfold closest. cbn [map]. apply argmin2. unfold dissim. rewrite (cosine_1q km_b S0 q), (cosine_11 km_b km_c); auto; try (apply D1; cbn; auto 10). rewrite E0. unfold km_b, km_c, dot; cbn. lra. }
    assert (C : closest [S0; km_c] km_c = Ok 1). { unfold closest. cbn [map]. apply argmin2'. unfold dissim. rewrite (cosine_1q km_c S0 q), (cosine_11 km_c km_c); auto; try (apply D1; cbn; auto 10). rewrite E0. unfold km_c, dot; cbn. lra. }
    unfold km_X. cbn [mapM]. rewrite A, B, C. reflexivity.
  - rewrite NN. cbn [f_inertia f_centers]. unfold inertia_of, km_X. cbn [map2 nth vsum]. rewrite E1.
    assert (IQ : (0 < / q <= 5 / 17)%R). { split; [apply Rinv_0_lt_compat; lra|]. replace (5 / 17)%R with (/ (17 / 5))%R by field. apply Rinv_le_contravar; lra. }
    assert (A : (cosine km_a S0 < 24 / 25)%R) by (rewrite (cosine_1q km_a S0 q); auto; [rewrite E0; unfold km_a, dot; cbn; lra|apply D1; cbn; auto]).
    assert (B : (cosine km_a km_c = 24 / 25)%R) by (rewrite cosine_11; [unfold km_a, km_c, dot; cbn; lra|apply D1; cbn; auto|apply D1; cbn; auto 10]).
    unfold dissim. lra.
Qed.
(** A case that meets the hypotheses: two orthogonal samples. *)
Definition km_I : list (list R) := [[1; 0]; [0; 1]]%R.
Lemma km_I_units : rect 2 km_I /\ (forall x, In x km_I -> unit x) /\ not_tiny 2 km_I.
Proof.
  split; [intros r [<-|[<-|[]]]; reflexivity|]. split; [intros r [<-|[<-|[]]]; unfold unit, dot; cbn; lra|].
  intros [|a [|b [|]]] k L; try discriminate. unfold members, km_I. cbn.
  assert (S : forall v, (dot v v = 0 \/ 1 <= dot v v)%R -> norm2 v = 0%R \/ (cos_eps <= norm2 v)%R).
  { intros v [Z|P]; [left; unfold norm2; rewrite Z; apply sqrt_0|right]. unfold norm2, cos_eps. apply Rle_trans with 1%R; [lra|]. rewrite <- sqrt_1 at 1. now apply sqrt_le_1_alt. }
  apply S. unfold vsum_rows. destruct (a =? k), (b =? k); unfold dot; cbn; lra.
Qed.
Example C68_example : exists f, kmeans_fit 2 2 300 (1 / 10 ^ 4) km_I None [[[0; 1]; [1; 0]]%R; km_I] = Ok f /\ f_inertia f = 0%R /\ f_n_iter f = 1 /\ f_centers f = [[0; 1]; [1; 0]]%R.
Proof.
  assert (NN : map normalise km_I = km_I).
  { assert (U : forall x, dot x x = 1%R -> normalise x = x). { intros x H. unfold normalise. rewrite (norm2_eq x 1) by lra. rewrite <- (map_id x) at 2. apply map_ext. intros. field. }
    unfold km_I. cbn [map]. rewrite !U by (unfold dot; cbn; lra). reflexivity. }
  assert (D : forall x y : list R, In x km_I -> In y km_I -> cosine x y = dot x y) by (intros x y [<-|[<-|[]]] [<-|[<-|[]]]; apply cosine_11; unfold dot; cbn; lra).
  assert (CL : forall tol a b, (0 <= tol)%R -> a = b -> close1 tol a b = true).
  { intros tol a b Ht ->. unfold close1, Rleb. destruct (Rle_dec _ _) as [|N]; [reflexivity|]. exfalso. apply N. rewrite Rminus_diag_eq, Rabs_R0 by auto. pose proof (Rabs_pos b). lra. }
  assert (T : (0 <= 1 / 10 ^ 4)%R) by lra.
  assert (STOP : forall c l, mapM (closest c) km_I = Ok l -> allclose (1 / 10 ^ 4) c (update 2 2 l km_I c) = true -> run_single 2 2 300 (1 / 10 ^ 4) km_I c = Ok (inertia_of km_I c l, c, 0)).
  { intros c l E A. unfold run_single. change 300 with (S 299). generalize 299 as m. intros m. cbn [kloop]. rewrite E. cbn [bind]. rewrite A. reflexivity. }
  assert (C1 : closest [[0; 1]; [1; 0]]%R [1; 0]%R = Ok 1). { unfold closest. cbn [map]. apply argmin2'. unfold dissim. rewrite !D by (cbn; auto). unfold dot. cbn. lra. }
  assert (C2 : closest [[0; 1]; [1; 0]]%R [0; 1]%R = Ok 0). { unfold closest. cbn [map]. apply argmin2. unfold dissim. rewrite !D by (cbn; auto). unfold dot. cbn. lra. }
  assert (C3 : closest km_I [1; 0]%R = Ok 0). { unfold closest, km_I. cbn [map]. apply argmin2. unfold dissim. rewrite !D by (cbn; auto). unfold dot. cbn. lra. }
  assert (C4 : closest km_I [0; 1]%R = Ok 1). { unfold closest, km_I. cbn [map]. apply argmin2'. unfold dissim. rewrite !D by (cbn; auto). unfold dot. cbn. lra. }
  assert (R1 : run_single 2 2 300 (1 / 10 ^ 4) km_I [[0; 1]; [1; 0]]%R = Ok (inertia_of km_I [[0; 1]; [1; 0]]%R [1; 0], [[0; 1]; [1; 0]]%R, 0)).
  { apply STOP; [unfold km_I; cbn [mapM]; now rewrite C1, C2|]. unfold allclose. cbn. rewrite !CL by (auto; lra). reflexivity. }
  assert (R2 : run_single 2 2 300 (1 / 10 ^ 4) km_I km_I = Ok (inertia_of km_I km_I [0; 1], km_I, 0)).
  { apply STOP; [unfold km_I at 2; cbn [mapM]; now rewrite C3, C4|]. unfold allclose. cbn. rewrite !CL by (auto; lra). reflexivity. }
  assert (I1 : inertia_of km_I [[0; 1]; [1; 0]]%R [1; 0] = 0%R). { unfold inertia_of, km_I. cbn [map2 nth vsum]. unfold dissim. rewrite !D by (cbn; auto). unfold dot. cbn. lra. }
  assert (I2 : inertia_of km_I km_I [0; 1] = 0%R). { unfold inertia_of, km_I. cbn [map2 nth vsum]. unfold dissim. rewrite !D by (cbn; auto). unfold dot. cbn. lra. }
  eexists. split; [|split; [|split]].
  - unfold kmeans_fit. rewrite NN. cbn [best_of]. rewrite R1. cbn [bind best_of]. rewrite R2. cbn [bind best_of fst]. rewrite I1, I2. rewrite (proj2 (Rltb_false 0 0)) by lra. cbn [bind]. reflexivity.
  - reflexivity.
  - reflexivity.
  - reflexivity.
Qed.
Example C107_example : exists i c n, run_single 2 2 5 0 km_I [[1; 0]; [1; 0]]%R = Ok (i, c, n) /\ exists labels, mapM (closest [[1; 0]; [1; 0]]%R) km_I = Ok labels /\ (i <= inertia_of km_I [[1; 0]; [1; 0]]%R labels)%R.
Proof.
  assert (TOT : forall cents, cents <> [] -> exists l, mapM (closest cents) km_I = Ok l).
  { intros cents H. apply mapM_ok_all. intros x _. unfold closest. destruct cents; [congruence|]. cbn. eauto. }
  assert (RUN : forall fuel n cents last, cents <> [] -> exists c r, kloop 2 2 0 km_I (S fuel) n cents last = Ok (c, Some r)).
  { assert (ST : forall fuel n cents last l, mapM (closest cents) km_I = Ok l -> kloop 2 2 0 km_I (S fuel) n cents last =
       if allclose 0 cents (update 2 2 l km_I cents) then Ok (cents, Some (l, n)) else kloop 2 2 0 km_I fuel (S n) (update 2 2 l km_I cents) (Some (l, n))) by (intros fuel n cents last l E; cbn [kloop]; rewrite E; reflexivity).
    induction fuel as [|fuel IH]; intros n cents last H; destruct (TOT cents H) as (l & E); rewrite (ST _ _ _ _ l E); destruct (allclose 0 cents (update 2 2 l km_I cents)); eauto; [cbn; eauto|].
    apply IH. unfold update. destruct cents; [congruence|discriminate]. }
  destruct (RUN 4 0 [[1; 0]; [1; 0]]%R None ltac:(discriminate)) as (c & [labels m] & E). exists (inertia_of km_I c labels), c, m.
  assert (R1 : run_single 2 2 5 0 km_I [[1; 0]; [1; 0]]%R = Ok (inertia_of km_I c labels, c, m)) by (unfold run_single; now rewrite E). split; auto.
  destruct km_I_units as (A & B & C). apply (C107_descent 2 2 5 0 km_I [[1; 0]; [1; 0]]%R _ c m); auto; [intros r [<-|[<-|[]]]; reflexivity].
Qed.

(** ** C108: source centroids *)

Lemma unique_classes n y : (forall l, In l y -> (0 <= l < Z.of_nat n)%Z) -> (forall c, c < n -> In (Z.of_nat c) y) -> unique_count y = n.
Proof.
  intros H1 H2. unfold unique_count. rewrite <- (seq_length n 0). rewrite <- (map_length Z.of_nat (seq 0 n)). apply Permutation.Permutation_length. apply Permutation.NoDup_Permutation.
  - apply NoDup_nodup.
  - apply FinFun.Injective_map_NoDup; [intros a b; lia|apply seq_NoDup].
  - intros z. rewrite nodup_In, in_map_iff. split.
    + intros H. exists (Z.to_nat z). specialize (H1 z H). rewrite Z2Nat.id by lia. split; auto. apply in_seq. lia.
    + intros (c & <- & Hc). apply in_seq in Hc. apply H2. lia.
Qed.
Lemma vsum_rows_entry d rows j : rect d rows -> j < d -> nth j (vsum_rows d rows) 0%R = entry_sum rows j.
Proof.
  intros H Hj. induction rows as [|r rows IH]; [cbn; rewrite nth_repeat; reflexivity|]. change (vsum_rows d (r :: rows)) with (vadd r (vsum_rows d rows)). rewrite nth_vadd.
  - rewrite IH; [reflexivity|]. intros x Hx. apply H. cbn. auto.
  - rewrite vsum_rows_length; [apply H; cbn; auto|]. intros x Hx. apply H. cbn. auto.
Qed.
Lemma f_normalize_length x : length (f_normalize x) = length x.
Proof. apply map_length. Qed.
(** With the labels 0, ..., n-1 centroid [c] is the sum of the normalised features of class [c]. *)
Theorem C108_centroids : forall d n y F, 1 <= n -> length y = length F -> rect d F -> (forall l, In l y -> (0 <= l < Z.of_nat n)%Z) -> (forall c, c < n -> In (Z.of_nat c) y) ->
  exists cs, source_centroids d y F = Ok cs /\ length cs = n /\ forall c j, c < n -> j < d ->
    nth j (nth c cs []) 0%R = entry_sum (map (fun r => map (fun a => a / Rmax (norm r) (1 / 10 ^ 12))%R r) (map snd (filter (fun p => (fst p =? Z.of_nat c)%Z) (combine y F)))) j.
Proof.
  intros d n y F Hn L HR H1 H2. unfold source_centroids. rewrite (unique_classes n) by auto.
  assert (NE : forall c, c < n -> of_label (Z.of_nat c) y F <> []).
  { intros c Hc E. specialize (H2 c Hc). apply In_nth_error in H2 as (i & Ei). destruct (nth_error F i) as [f|] eqn:Ef; [|apply nth_error_None in Ef; assert (i < length y) by (apply nth_error_Some; congruence); lia].
    assert (I : In f (of_label (Z.of_nat c) y F)); [|rewrite E in I; destruct I]. unfold of_label. apply in_map_iff. exists (Z.of_nat c, f). split; auto. apply filter_In. cbn. rewrite Z.eqb_refl. split; auto.
    clear - Ei Ef. revert y F Ei Ef. induction i as [|i IH]; intros [|a y] [|b F] Ei Ef; try discriminate; cbn in *; [left; congruence|right; auto]. }
  set (g := fun c => vsum_rows d (map f_normalize (of_label (Z.of_nat c) y F))).
  match goal with |- context [flat_map ?h0 (seq 0 n)] => set (h := h0) end.
  assert (HG : forall c, c < n -> h c = [g c]). { intros c Hc. specialize (NE c Hc). unfold h, g. destruct (of_label (Z.of_nat c) y F); [congruence|reflexivity]. }
  assert (E : flat_map h (seq 0 n) = map g (seq 0 n)).
  { assert (G : forall s, (forall c, In c s -> c < n) -> flat_map h s = map g s).
    { induction s as [|c s IH]; intros Hs; [reflexivity|]. cbn [flat_map map]. rewrite IH by (intros; apply Hs; cbn; auto). rewrite HG by (apply Hs; cbn; auto). reflexivity. }
    apply G. intros c Hc. apply in_seq in Hc. lia. }
  rewrite E. exists (map g (seq 0 n)). split; [destruct n; [lia|reflexivity]|]. split; [now rewrite map_length, seq_length|]. intros c j Hc Hj.
  rewrite (nth_indep _ [] (g 0)) by (rewrite map_length, seq_length; auto). rewrite map_nth, seq_nth by auto. unfold g. rewrite vsum_rows_entry; auto.
  intros r Hr. apply in_map_iff in Hr as (q & <- & Hq). rewrite f_normalize_length. apply HR. unfold of_label in Hq. apply in_map_iff in Hq as ([l q'] & <- & Hq). apply filter_In in Hq as [Hq _]. now apply in_combine_r in Hq.
Qed.
(** REFUTED for other labels: classes are lost, or the callback fails. *)
Theorem C108_other_labels_refuted :
  (exists y F cs, length y = length F /\ (exists a b, In a y /\ In b y /\ a <> b) /\ source_centroids 1 y F = Ok cs /\ length cs = 1) /\
  (exists y F, length y = length F /\ (exists a b, In a y /\ In b y /\ a <> b) /\ source_centroids 1 y F = Err RuntimeError).
Proof.
  split.
  - exists [1; 2]%Z, [[1]; [2]]%R. eexists. split; [reflexivity|]. split; [exists 1%Z, 2%Z; cbn; repeat split; auto; lia|]. split; reflexivity.
  - exists [5; 7]%Z, [[1]; [2]]%R. split; [reflexivity|]. split; [exists 5%Z, 7%Z; cbn; repeat split; auto; lia|]. reflexivity.
Qed.
Example C108_example : exists cs, source_centroids 1 [1; 0; 1]%Z [[1]; [5]; [1]]%R = Ok cs /\ length cs = 2 /\ nth 0 (nth 1 cs []) 0%R = 2%R.
Proof.
  destruct (C108_centroids 1 2 [1; 0; 1]%Z [[1]; [5]; [1]]%R) as (cs & E & L & N); auto.
  - intros r [<-|[<-|[<-|[]]]]; reflexivity.
  - intros l [<-|[<-|[<-|[]]]]; lia.
  - intros [|[|c]] H; cbn; auto; lia.
  - exists cs. repeat split; auto. rewrite N by lia. unfold entry_sum. cbn. assert (M : Rmax (norm [1%R]) (1 / 10 ^ 12) = 1%R).
    { unfold norm, dot. cbn [map2 vsum]. replace (1 * 1 + 0)%R with 1%R by ring. rewrite sqrt_1. apply Rmax_left. lra. }
    cbn in M. rewrite M. field.
Qed.

(** ** C109: CDAN *)

Theorem C109_multilinear : forall y f k j, k < length y -> j < length f -> length (multilinear y f) = length y * length f /\ nth (k * length f + j) (multilinear y f) 0%R = (nth k y 0 * nth j f 0)%R.
Proof.
  intros y f k j Hk Hj. split; [unfold multilinear; rewrite (concat_map_length _ (length f)) by (intros; apply map_length); reflexivity|]. unfold multilinear. revert k Hk. induction y as [|a y IH]; intros k Hk; [cbn in Hk; lia|]. cbn [map concat]. destruct k.
  - cbn. rewrite app_nth1 by (now rewrite map_length). rewrite (nth_indep _ 0%R (a * 0)%R) by (now rewrite map_length). now rewrite (map_nth (Rmult a)).
  - rewrite app_nth2 by (rewrite map_length; cbn; lia). rewrite map_length. replace (S k * length f + j - length f) with (k * length f + j) by (cbn; lia). apply IH. cbn in Hk. lia.
Qed.
(** The input of the domain classifier has min(n_features * n_classes, max_features) entries for every sample. *)
Theorem C109_width : forall Gen seeded randn max_features seed os (g : Gen) nf nc batch r, (forall f y, In (f, y) batch -> length f = nf /\ length y = nc) ->
  In r (fst (cdan_forward Gen seeded randn max_features seed os g nf nc batch)) -> length r = Nat.min (nf * nc) max_features.
Proof.
  intros Gen seeded randn mf seed os g nf nc batch r H I. unfold cdan_forward in I. destruct (Nat.ltb_spec mf (nf * nc)) as [Q|Q].
  - destruct (randn (check_generator Gen seeded seed os) nf mf) as [R0 g1]. destruct (randn g1 nc mf) as [R1 g2]. cbn in I. apply in_map_iff in I as ([f y] & <- & I). unfold random_map. rewrite map2_length.
    + rewrite map_length. unfold vecmat. rewrite map_length, seq_length. lia.
    + rewrite map_length. unfold vecmat. now rewrite !map_length.
  - cbn in I. apply in_map_iff in I as ([f y] & <- & I). destruct (H f y I) as [A B]. cbn. unfold multilinear. rewrite (concat_map_length _ (length f)) by (intros; apply map_length). rewrite A, B. lia.
Qed.
(** With an integer seed every batch goes through the same random projection. *)
Theorem C109_same_projection : forall Gen seeded randn max_features s os os' (g g' : Gen) nf nc, exists phi, forall batch,
  fst (cdan_forward Gen seeded randn max_features (Some s) os g nf nc batch) = map phi batch /\ fst (cdan_forward Gen seeded randn max_features (Some s) os' g' nf nc batch) = map phi batch.
Proof.
  intros Gen seeded randn mf s os os' g g' nf nc. unfold cdan_forward. cbn [check_generator]. destruct (mf <? nf * nc).
  - destruct (randn (seeded s) nf mf) as [R0 g1]. destruct (randn g1 nc mf) as [R1 g2]. eexists. intros batch. split; reflexivity.
  - eexists. intros batch. split; reflexivity.
Qed.
(** REFUTED: the projection is drawn again at every batch from the global generator, which is reseeded: its state after a training
    batch does not depend on its state before. *)
Theorem C109_global_generator_refuted : forall Gen seeded randn max_features s os os' (g g' : Gen) nf nc batch batch', max_features < nf * nc ->
  snd (cdan_forward Gen seeded randn max_features (Some s) os g nf nc batch) = snd (cdan_forward Gen seeded randn max_features (Some s) os' g' nf nc batch').
Proof.
  intros Gen seeded randn mf s os os' g g' nf nc batch batch' H. unfold cdan_forward. rewrite (proj2 (Nat.ltb_lt _ _) H). cbn [check_generator].
  destruct (randn (seeded s) nf mf) as [R0 g1]. destruct (randn g1 nc mf) as [R1 g2]. reflexivity.
Qed.
(** REFUTED without a seed: two batches are projected by different matrices. *)
Theorem C109_no_seed_refuted : exists (seeded : Z -> R) randn os os' g batch, fst (cdan_forward R seeded randn 1 None os g 1 2 batch) <> fst (cdan_forward R seeded randn 1 None os' g 1 2 batch).
Proof.
  exists IZR, (fun g n m => (repeat (repeat g m) n, g)), 1%Z, 2%Z, 0%R, [([1%R], [1%R; 0%R])]. cbn. unfold random_map, vecmat, column, dot. cbn. rewrite sqrt_1. intros H. injection H. lra.
Qed.
Example C109_example : multilinear [2; 3]%R [5; 7; 11]%R = [10; 14; 22; 15; 21; 33]%R.
Proof. unfold multilinear. cbn. repeat (apply f_equal2; [ring|]). reflexivity. Qed.

(** ** C110: pseudo-labels of SPA *)

Lemma nap_distances_nth memory idx x j : j < length memory -> nth j (nap_distances memory idx x) None = if existsb (Nat.eqb j) idx then None else Some (euclid x (nth j memory []) * euclid x (nth j memory []))%R.
Proof.
  intros H. unfold nap_distances. set (g := fun j0 => if existsb (Nat.eqb j0) idx then None else Some (euclid x (nth j0 memory []) * euclid x (nth j0 memory []))%R).
  rewrite (nth_indep _ None (g 0)) by (rewrite map_length, seq_length; auto). rewrite map_nth, seq_nth by auto. reflexivity.
Qed.
(** The neighbours are [K] bank entries outside the batch, none of the others being closer, if there are [K] of them. *)
Theorem C110_neighbours : forall memory idx x K nb, rect (length x) memory -> is_topk K (nap_distances memory idx x) nb -> K + length (filter (fun j => existsb (Nat.eqb j) idx) (seq 0 (length memory))) <= length memory ->
  length nb = K /\ NoDup nb /\ (forall i, In i nb -> i < length memory /\ ~ In i idx) /\
  forall i j, In i nb -> j < length memory -> ~ In j nb -> ~ In j idx -> (distance x (nth i memory []) <= distance x (nth j memory []))%R.
Proof.
  intros memory idx x K nb HR (L & ND & B & T) HK. assert (LD : length (nap_distances memory idx x) = length memory) by (unfold nap_distances; now rewrite map_length, seq_length). rewrite LD in *.
  assert (OUT : forall i, In i nb -> ~ In i idx).
  { intros i Hi Hx. set (ex := filter (fun j => existsb (Nat.eqb j) idx) (seq 0 (length memory))) in *. set (fr := filter (fun j => negb (existsb (Nat.eqb j) idx)) (seq 0 (length memory))).
    assert (C : length fr + length ex = length memory). { unfold fr, ex. rewrite <- (seq_length (length memory) 0) at 3. clear. induction (seq 0 (length memory)) as [|a l IH]; [reflexivity|]. cbn. destruct (existsb (Nat.eqb a) idx); cbn; lia. }
    (* every free entry is selected *)
    assert (SUB : incl fr nb). { intros j Hj. unfold fr in Hj. apply filter_In in Hj as [Hj Hf]. apply in_seq in Hj. destruct (in_dec Nat.eq_dec j nb) as [I|N]; auto. exfalso. specialize (T i j Hi ltac:(lia) N).
      rewrite !nap_distances_nth in T by (auto; lia). assert (X : existsb (Nat.eqb i) idx = true) by (apply existsb_exists; exists i; split; auto; apply Nat.eqb_refl). rewrite X in T. destruct (existsb (Nat.eqb j) idx); [discriminate|]. exact T. }
    assert (SUB2 : incl (i :: fr) nb) by (intros j [<-|Hj]; auto). assert (ND2 : NoDup (i :: fr)). { constructor; [|apply NoDup_filter, seq_NoDup]. unfold fr. intros F. apply filter_In in F as [_ F]. assert (X : existsb (Nat.eqb i) idx = true) by (apply existsb_exists; exists i; split; auto; apply Nat.eqb_refl). rewrite X in F. discriminate. }
    apply (NoDup_incl_length ND2) in SUB2. cbn in SUB2. lia. }
  repeat split; auto. intros i j Hi Hj Nj Xj. specialize (T i j Hi Hj Nj). rewrite !nap_distances_nth in T by auto.
  assert (F : forall z, ~ In z idx -> existsb (Nat.eqb z) idx = false). { intros z Hz. destruct (existsb (Nat.eqb z) idx) eqn:E; auto. apply existsb_exists in E as (w & Hw & Ew). apply Nat.eqb_eq in Ew. subst w. contradiction. }
  rewrite !F in T by auto. cbn in T. assert (Ei : length x = length (nth i memory [])) by (symmetry; apply HR, nth_In; auto). assert (Ej : length x = length (nth j memory [])) by (symmetry; apply HR, nth_In; auto).
  rewrite <- !euclid_distance by auto. assert (P : forall y, (0 <= euclid x y)%R) by (intros; apply sqrt_pos). pose proof (P (nth i memory [])). pose proof (P (nth j memory [])). apply Rsqr_incr_0_var; auto.
Qed.
(** The pseudo-label is the class with the largest mean of the stored outputs of the neighbours, and its weight is that mean. *)
Lemma nap_mean K outputs nb k : NoDup nb -> (forall i, In i nb -> i < length outputs) ->
  dot (nap_weights K (length outputs) nb) (column outputs k) = (1 / INR K * vsum (map (fun i => nth k (nth i outputs []) 0%R) nb))%R.
Proof.
  intros ND B. assert (E : dot (nap_weights K (length outputs) nb) (column outputs k) = vsum (map (fun i => ((if existsb (Nat.eqb i) nb then 1 / INR K else 0) * nth k (nth i outputs []) 0)%R) (seq 0 (length outputs)))).
  { unfold nap_weights, column, dot. clear. f_equal. assert (G : forall l s, map2 Rmult (map (fun j => if existsb (Nat.eqb j) nb then (1 / INR K)%R else 0%R) (seq s (length l))) (map (fun r => nth k r 0%R) l) =
       map (fun i => ((if existsb (Nat.eqb i) nb then 1 / INR K else 0) * nth k (nth (i - s) l []) 0)%R) (seq s (length l))).
    { induction l as [|r l IH]; intros s; [reflexivity|]. cbn [length seq map map2]. rewrite Nat.sub_diag. cbn [nth]. f_equal. rewrite IH. apply map_ext_in. intros i Hi. apply in_seq in Hi. replace (i - s) with (S (i - S s)) by lia. reflexivity. }
    rewrite (G outputs 0). apply map_ext. intros i. now rewrite Nat.sub_0_r. }
  rewrite E. rewrite <- vsum_mult. set (g := fun i => nth k (nth i outputs []) 0%R).
  assert (P : forall l, NoDup l -> incl nb l -> vsum (map (fun i => ((if existsb (Nat.eqb i) nb then 1 / INR K else 0) * g i)%R) l) = vsum (map (fun i => (1 / INR K * g i)%R) nb)).
  { intros l NL IL. transitivity (vsum (map (fun i => (1 / INR K * g i)%R) (filter (fun i => existsb (Nat.eqb i) nb) l))).
    - clear. induction l as [|a l IH]; [reflexivity|]. cbn [map vsum filter]. destruct (existsb (Nat.eqb a) nb); cbn [map vsum]; rewrite IH; ring.
    - apply vsum_perm, Permutation.Permutation_map, Permutation.NoDup_Permutation; [now apply NoDup_filter|auto|]. intros z. rewrite filter_In. split.
      + intros [_ H]. apply existsb_exists in H as (w & Hw & Ew). apply Nat.eqb_eq in Ew. now subst.
      + intros H. split; auto. apply existsb_exists. exists z. split; auto. apply Nat.eqb_refl. }
  apply P; [apply seq_NoDup|]. intros i Hi. apply in_seq. specialize (B i Hi). lia.
Qed.
Theorem C110_pseudo_label : forall K c outputs nb, 1 <= c -> rect c outputs -> outputs <> [] -> NoDup nb -> (forall i, In i nb -> i < length outputs) ->
  let mean_output k := (1 / INR K * vsum (map (fun i => nth k (nth i outputs []) 0%R) nb))%R in
  exists k, nap_pseudo K outputs nb = Ok (mean_output k, k) /\ k < c /\ forall k', k' < c -> (mean_output k' <= mean_output k)%R.
Proof.
  intros K c outputs nb Hc HR NE ND B mo. unfold nap_pseudo. rewrite (width_rect c) by auto. set (v := vecmat (nap_weights K (length outputs) nb) outputs c).
  assert (LV : length v = c) by (unfold v, vecmat; now rewrite map_length, seq_length).
  assert (NV : forall k, k < c -> nth k v 0%R = mo k).
  { intros k Hk. unfold v, vecmat. set (g := fun j => dot (nap_weights K (length outputs) nb) (column outputs j)). rewrite (nth_indep _ 0%R (g 0)) by (rewrite map_length, seq_length; auto). rewrite map_nth, seq_nth by auto. unfold g. cbn. now apply nap_mean. }
  destruct (np_argmax v) as [k|] eqn:A.
  - exists k. destruct (np_argmax_spec v k A) as (K1 & K2 & _). rewrite LV in *. cbn. rewrite NV by auto. repeat split; auto. intros k' Hk'. specialize (K2 k' Hk'). now rewrite !NV in K2.
  - exfalso. unfold np_argmax, np_argmin in A. destruct v; [cbn in LV; lia|]. discriminate.
Qed.
(** With fewer than [K] entries outside the batch an excluded entry is used. *)
Theorem C110_too_few : forall memory idx x K nb, is_topk K (nap_distances memory idx x) nb -> length memory < K + length (filter (fun j => existsb (Nat.eqb j) idx) (seq 0 (length memory))) -> exists i, In i nb /\ In i idx.
Proof.
  intros memory idx x K nb (L & ND & B & T) HK. assert (LD : length (nap_distances memory idx x) = length memory) by (unfold nap_distances; now rewrite map_length, seq_length). rewrite LD in *.
  set (fr := filter (fun j => negb (existsb (Nat.eqb j) idx)) (seq 0 (length memory))). set (ex := filter (fun j => existsb (Nat.eqb j) idx) (seq 0 (length memory))) in *.
  assert (C : length fr + length ex = length memory). { unfold fr, ex. rewrite <- (seq_length (length memory) 0) at 3. clear. induction (seq 0 (length memory)) as [|a l IH]; [reflexivity|]. cbn. destruct (existsb (Nat.eqb a) idx); cbn; lia. }
  destruct (existsb (fun i => existsb (Nat.eqb i) idx) nb) eqn:E.
  - apply existsb_exists in E as (i & Hi & Ei). exists i. split; auto. apply existsb_exists in Ei as (w & Hw & Ew). apply Nat.eqb_eq in Ew. now subst.
  - exfalso. assert (S : incl nb fr). { intros i Hi. apply filter_In. split; [apply in_seq; specialize (B i Hi); lia|]. destruct (existsb (Nat.eqb i) idx) eqn:F; auto. assert (existsb (fun i0 => existsb (Nat.eqb i0) idx) nb = true) by (apply existsb_exists; eauto). congruence. }
    apply (NoDup_incl_length ND) in S. lia.
Qed.
Example C110_example : is_topk 1 (nap_distances [[0]; [1]; [5]]%R [0] [0]%R) [1] /\ nap_pseudo 1 [[1 / 2; 1 / 2]; [1 / 4; 3 / 4]; [1; 0]]%R [1] = Ok ((1 / 1 * (3 / 4 + 0))%R, 1).
Proof.
  split.
  - unfold is_topk. cbn. split; [reflexivity|]. split; [repeat constructor; cbn; tauto|]. split; [intros i [<-|[]]; lia|]. intros i j [<-|[]] Hj Nj. destruct j as [|[|[|j]]]; [exact I|exfalso; apply Nj; left; reflexivity| |lia]. cbn.
    assert (E : forall a b, (0 <= b - a)%R -> euclid [a] [b] = (b - a)%R). { intros a b H. apply norm2_eq; auto. unfold dot, vsub. cbn. ring. } rewrite !E by lra. lra.
  - destruct (C110_pseudo_label 1 2 [[1 / 2; 1 / 2]; [1 / 4; 3 / 4]; [1; 0]]%R [1]) as (k & E & Hk & M); auto; try discriminate.
    + intros r [<-|[<-|[<-|[]]]]; reflexivity.
    + repeat constructor. cbn. tauto.
    + intros i [<-|[]]. cbn. lia.
    + rewrite E. destruct k as [|[|k]]; [|reflexivity|lia]. exfalso. specialize (M 1 ltac:(lia)). cbn in M. lra.
Qed.
(** The loss: mean cross entropy of the pseudo-labels, weighted by the confidence in them. *)
Theorem C110_loss : forall K c outputs neighbours y_pred_t, 1 <= c -> rect c outputs -> outputs <> [] -> rect c y_pred_t -> length neighbours = length y_pred_t ->
  (forall nb, In nb neighbours -> NoDup nb /\ forall i, In i nb -> i < length outputs) ->
  let mean_output nb k := (1 / INR K * vsum (map (fun i => nth k (nth i outputs []) 0%R) nb))%R in
  exists best, (forall nb, In nb neighbours -> best nb < c /\ forall k, k < c -> (mean_output nb k <= mean_output nb (best nb))%R) /\
    nap_loss K outputs neighbours y_pred_t = Ok (vsum (map2 (fun nb r => mean_output nb (best nb) * - ln (prob r (best nb))) neighbours y_pred_t) / (vsum (map (fun nb => mean_output nb (best nb)) neighbours) + 1 / 10 ^ 7))%R.
Proof.
  intros K c outputs nbs y Hc HR NE HY L HN mo.
  set (best := fun nb => match nap_pseudo K outputs nb with Ok (_, k) => k | Err _ => 0 end). exists best.
  assert (P : forall nb, In nb nbs -> nap_pseudo K outputs nb = Ok (mo nb (best nb), best nb) /\ best nb < c /\ forall k, k < c -> (mo nb k <= mo nb (best nb))%R).
  { intros nb Hnb. destruct (HN nb Hnb) as [ND B]. destruct (C110_pseudo_label K c outputs nb Hc HR NE ND B) as (k & E & Hk & M). unfold best. rewrite E. auto. }
  split; [intros nb Hnb; apply P; auto|]. unfold nap_loss. rewrite (mapM_ok _ (fun nb => (mo nb (best nb), best nb)) nbs) by (intros; apply P; auto). cbn [bind].
  rewrite np_map2_eq by (now rewrite map_length). cbn [bind]. rewrite map_map. cbn [fst].
  assert (G : forall nbs y, length nbs = length y -> rect c y -> (forall nb, In nb nbs -> best nb < c) ->
     mapM (fun rq : list R * (R * nat) => c0 <- cross_entropy (fst rq) (snd (snd rq)) ;; Ok (fst (snd rq) * c0)%R) (map2 (fun r q => (r, q)) y (map (fun nb => (mo nb (best nb), best nb)) nbs)) = Ok (map2 (fun nb r => (mo nb (best nb) * - ln (prob r (best nb)))%R) nbs y)).
  { clear - mo. induction nbs as [|nb nbs IH]; intros [|r y] L HY HB; try discriminate; [reflexivity|]. cbn [map map2 mapM fst snd]. rewrite C70_default_criterion.
    - cbn [bind]. rewrite IH; [reflexivity| |intros x Hx; apply HY; cbn; auto|intros x Hx; apply HB; cbn; auto]. cbn in L. lia.
    - rewrite (HY r (or_introl eq_refl)). apply HB. cbn. auto. }
  rewrite G; auto. intros nb Hnb. apply P. auto.
Qed.
