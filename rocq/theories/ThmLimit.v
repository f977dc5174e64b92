(** C235: an iteration limit cuts a run short and does nothing else. *)
From Coq Require Import List ZArith Bool Arith Lia Reals Lra.
From Verif Require MapModel ReweightModel CallModel LossModel UtilsModel.
From Verif Require Import Np NpFacts RVec OTModel.
Import ListNotations.
Local Open Scope nat_scope.
Local Open Scope list_scope.

(** ** Facts *)
Lemma loop_limit {S} (step : nat -> S -> res (S * R * R)) tol n n' : n <= n' -> forall k k' i s pot plab, 0 < k -> i + k = n -> i + k' = n' ->
  match jdot_loop step tol n k i s pot plab with
  | Err e => jdot_loop step tol n' k' i s pot plab = Err e
  | Ok (s1, l, ll, false) => jdot_loop step tol n' k' i s pot plab = Ok (s1, l, ll, false)
  | Ok (s1, l, ll, true) => length l = k /\ length ll = k /\
      forall s2 l2 ll2 w, jdot_loop step tol n' k' i s pot plab = Ok (s2, l2, ll2, w) -> firstn k l2 = l /\ firstn k ll2 = ll
  end.
Proof.
  intros LE. induction k as [|k IH]; intros k' i s pot plab P E E'; [lia|]. destruct k' as [|k']; [lia|]. cbn [jdot_loop].
  destruct (step i s) as [[[s1 lot] llab]|e]; [|reflexivity]. cbn [bind].
  destruct (small_change tol lot pot); [reflexivity|]. destruct (small_change tol llab plab); [reflexivity|].
  destruct (i =? n - 1) eqn:En.
  - apply Nat.eqb_eq in En. assert (k = 0) by lia. subst k. split; [reflexivity|]. split; [reflexivity|]. intros s2 l2 ll2 w.
    destruct (i =? n' - 1); [intros [= <- <- <- <-]; split; reflexivity|]. destruct (jdot_loop step tol n' k' (Datatypes.S i) s1 (Some lot) (Some llab)) as [[[[? ?] ?] ?]|]; cbn; [|discriminate].
    intros [= <- <- <- <-]. split; reflexivity.
  - apply Nat.eqb_neq in En. assert (En' : (i =? n' - 1) = false) by (apply Nat.eqb_neq; lia). rewrite En'.
    specialize (IH k' (Datatypes.S i) s1 (Some lot) (Some llab) ltac:(lia) ltac:(lia) ltac:(lia)).
    destruct (jdot_loop step tol n k (Datatypes.S i) s1 (Some lot) (Some llab)) as [[[[s2 a] b] [|]]|e]; cbn [bind].
    + destruct IH as (L1 & L2 & IH). split; [cbn; lia|]. split; [cbn; lia|]. intros s3 l3 ll3 w H.
      destruct (jdot_loop step tol n' k' (Datatypes.S i) s1 (Some lot) (Some llab)) as [[[[s4 a4] b4] w4]|]; [|discriminate]. cbn in H. injection H as <- <- <- <-.
      destruct (IH _ _ _ _ eq_refl) as [Q1 Q2]. cbn. now rewrite Q1, Q2.
    + now rewrite IH.
    + now rewrite IH.
Qed.

(** ** Theorems *)
(** JDOT: without the warning the limit was not reached, and a larger one gives the same result; with the warning a larger limit gives a run that begins with the same losses.
    An exception is raised whatever the limit. *)
Definition only_cut {Est} (n n' : nat) (short long : res (Est * list R * list R * list (list R) * bool)) : Prop :=
  match short with
  | Err e => long = Err e
  | Ok (_, _, _, _, false) => long = short
  | Ok (_, l, ll, _, true) => length l = n /\ length ll = n /\ forall est l' ll' T w, long = Ok (est, l', ll', T, w) -> firstn n l' = l /\ firstn n ll' = ll
  end.
Lemma cut_loop {Est M} (step : nat -> M * option (Est * list (list R)) -> res ((M * option (Est * list (list R))) * R * R)) tol n n' s0 :
  0 < n -> n <= n' -> (forall i s s' a b, step i s = Ok (s', a, b) -> snd s' <> None) ->
  let run n := r <- jdot_loop step tol n n 0 s0 None None ;; (let '(s, lot, llab, w) := r in match snd s with Some (est, T) => Ok (est, lot, llab, T, w) | None => Err UnboundLocalError end) in
  only_cut n n' (run n) (run n').
Proof.
  intros Hn LE Hs run. unfold run. pose proof (loop_limit step tol n n' LE n n' 0 s0 None None Hn eq_refl eq_refl) as Q.
  destruct (jdot_loop step tol n n 0 s0 None None) as [[[[s1 l] ll] [|]]|e] eqn:E; cbn [bind].
  - destruct Q as (L1 & L2 & Q). assert (NN : snd s1 <> None).
    { clear Q. assert (G : forall k i s p q s' a b w, 0 < k -> jdot_loop step tol n k i s p q = Ok (s', a, b, w) -> snd s' <> None).
      { induction k as [|k IH]; intros i s p q s' a b w P H; [lia|]. cbn [jdot_loop] in H. destruct (step i s) as [[[sx lo] la]|] eqn:Es; [|discriminate]. cbn [bind] in H. pose proof (Hs _ _ _ _ _ Es).
        destruct (small_change tol lo p); [injection H as <- _ _ _; assumption|]. destruct (small_change tol la q); [injection H as <- _ _ _; assumption|].
        destruct (i =? n - 1); [injection H as <- _ _ _; assumption|]. destruct (jdot_loop step tol n k (S i) sx (Some lo) (Some la)) as [[[[sy ?] ?] ?]|] eqn:Ey; [|discriminate]. cbn in H. injection H as <- _ _ _.
        destruct k as [|k]; [cbn in Ey; injection Ey as <- _ _ _; assumption|]. eapply IH; [|exact Ey]. lia. }
      eapply G; [exact Hn|exact E]. }
    destruct (snd s1) as [[e T]|]; [|congruence]. cbn. split; [exact L1|]. split; [exact L2|]. intros est l' ll' T' w H.
    destruct (jdot_loop step tol n' n' 0 s0 None None) as [[[[s2 l2] ll2] w2]|]; [|discriminate]. cbn in H. destruct (snd s2) as [[e2 T2]|]; [|discriminate]. injection H as <- <- <- <- <-. exact (Q _ _ _ _ eq_refl).
  - rewrite Q. cbn [bind]. destruct (snd s1) as [[e T]|]; reflexivity.
  - rewrite Q. reflexivity.
Qed.

Theorem C235_jdot_regression : forall Est solve (fit : list R -> option (list R) -> res (Est * list R)) alpha tol n n' dist ys nt ws wt, 0 < n -> n <= n' ->
  only_cut n n' (solve_jdot_regression solve fit alpha tol n dist ys nt ws wt) (solve_jdot_regression solve fit alpha tol n' dist ys nt ws wt).
Proof.
  intros Est solve fit alpha tol n n' dist ys nt ws wt Hn LE. unfold solve_jdot_regression. apply cut_loop; auto.
  intros i s s' a b H. unfold reg_step in H. apply bind_ok in H as [[T v] [_ H]]. cbn beta iota in H. apply bind_ok in H as [[e yp] [_ H]]. cbn beta iota in H. apply bind_ok in H as [d [_ H]]. injection H as <- _ _. discriminate.
Qed.
Theorem C235_jdot_classification : forall Est Xrow solve (fit : list Xrow -> list Z -> list R -> res Est) pred metric alpha thr tol n n' dist ys Xt ws wt, 0 < n -> n <= n' ->
  only_cut n n' (solve_jdot_classification solve fit pred metric alpha thr tol n dist ys Xt ws wt) (solve_jdot_classification solve fit pred metric alpha thr tol n' dist ys Xt ws wt).
Proof.
  intros Est Xrow solve fit pred metric alpha thr tol n n' dist ys Xt ws wt Hn LE. unfold solve_jdot_classification. apply cut_loop; auto.
  intros i s s' a b H. unfold cls_step in H. apply bind_ok in H as [[T v] [_ H]]. cbn beta iota in H. apply bind_ok in H as [[[xh yh] wh] [_ H]]. cbn beta iota in H. apply bind_ok in H as [e [_ H]].
  apply bind_ok in H as [Ml [_ H]]. apply bind_ok in H as [q [_ H]]. injection H as <- _ _. discriminate.
Qed.

(** TransferJointMatching: fewer objective values than iterations allowed mean that the run stopped by itself. *)
Lemma tjm_limit Am eig norms objective m tol : forall k k' last g (A : option Am), k <= k' ->
  match MapModel.tjm_loop Am eig norms objective m tol k last g A with
  | Err e => 0 < k -> MapModel.tjm_loop Am eig norms objective m tol k' last g A = Err e
  | Ok (a, l) => length l <= k /\ (length l < k -> MapModel.tjm_loop Am eig norms objective m tol k' last g A = Ok (a, l)) /\
      forall a' l', MapModel.tjm_loop Am eig norms objective m tol k' last g A = Ok (a', l') -> firstn k l' = l
  end.
Proof.
  induction k as [|k IH]; intros k' last g A LE.
  - cbn. destruct A as [a|]; [|lia]. split; [reflexivity|]. split; [cbn; lia|]. reflexivity.
  - destruct k' as [|k']; [lia|]. cbn [MapModel.tjm_loop]. destruct (eig g) as [a|e]; [|intros _; reflexivity]. cbn [bind]. destruct (MapModel.tjm_g Am norms m a) as [g'|e]; [|intros _; reflexivity]. cbn [bind]. cbv zeta.
    destruct (_ || _).
    + split; [cbn; lia|]. split; [reflexivity|]. intros a' l' [= <- <-]. cbn. destruct k; reflexivity.
    + specialize (IH k' (objective a) g' (Some a) ltac:(lia)). destruct (MapModel.tjm_loop Am eig norms objective m tol k (objective a) g' (Some a)) as [[a1 l1]|e] eqn:E; cbn [bind fst snd].
      * destruct IH as (L & Q1 & Q2). split; [cbn; lia|]. split.
        -- cbn [length]. intros H. rewrite Q1 by lia. reflexivity.
        -- intros a' l'. destruct (MapModel.tjm_loop Am eig norms objective m tol k' (objective a) g' (Some a)) as [[a2 l2]|]; cbn; [|discriminate]. intros [= <- <-]. cbn. now rewrite (Q2 _ _ eq_refl).
      * intros _. destruct k as [|k]; [discriminate|]. rewrite IH by lia. reflexivity.
Qed.
Theorem C235_tjm : forall Am eig norms objective m tol n n' (a : Am) l, n <= n' -> MapModel.tjm_fit Am eig norms objective m tol n = Ok (a, l) ->
  (length l < n -> MapModel.tjm_fit Am eig norms objective m tol n' = Ok (a, l)) /\
  (forall a' l', MapModel.tjm_fit Am eig norms objective m tol n' = Ok (a', l') -> firstn n l' = l).
Proof.
  intros Am eig norms objective m tol n n' a l LE E. unfold MapModel.tjm_fit in *. pose proof (tjm_limit Am eig norms objective m tol n n' (-2 * tol)%R (repeat 1%R (length m)) None LE) as Q.
  rewrite E in Q. destruct Q as (_ & Q1 & Q2). split; assumption.
Qed.

(** Spherical k-means from given centres: a run of fewer iterations than allowed is the run of every larger limit. *)
Lemma kloop_limit nc d tol X : forall k k' n cents last, k <= k' ->
  match CallModel.kloop nc d tol X k n cents last with
  | Err e => CallModel.kloop nc d tol X k' n cents last = Err e
  | Ok (c, Some (lab, i)) => i + 1 < n + k -> (last = None \/ exists p, last = Some p /\ snd p < n) -> 0 < k -> CallModel.kloop nc d tol X k' n cents last = Ok (c, Some (lab, i))
  | Ok (c, None) => k = 0
  end.
Proof.
  induction k as [|k IH]; intros k' n cents last LE.
  - cbn. destruct last as [[lab i]|]; [lia|reflexivity].
  - destruct k' as [|k']; [lia|]. cbn [CallModel.kloop]. destruct (mapM (CallModel.closest cents) X) as [lab|e]; [|reflexivity]. cbn [bind]. cbv zeta.
    destruct (CallModel.allclose tol cents (CallModel.update nc d lab X cents)); [reflexivity|].
    specialize (IH k' (S n) (CallModel.update nc d lab X cents) (Some (lab, n)) ltac:(lia)).
    destruct (CallModel.kloop nc d tol X k (S n) (CallModel.update nc d lab X cents) (Some (lab, n))) as [[c [[lab' i]|]]|e] eqn:E.
    + intros H _ _. destruct k as [|k]; [cbn in E; injection E as <- <- <-; lia|]. apply IH; [lia| |lia]. right. exists (lab, n). split; [reflexivity|cbn; lia].
    + subst k. cbn in E. discriminate.
    + exact IH.
Qed.
Theorem C235_kmeans : forall nc d tol X init n n' f, n <= n' -> CallModel.kmeans_fit nc d n tol X (Some init) [] = Ok f -> CallModel.f_n_iter f < n ->
  CallModel.kmeans_fit nc d n' tol X (Some init) [] = Ok f.
Proof.
  intros nc d tol X init n n' f LE E H. unfold CallModel.kmeans_fit, CallModel.run_single in *. pose proof (kloop_limit nc d tol (map CallModel.normalise X) n n' 0 init None LE) as Q.
  destruct (CallModel.kloop nc d tol (map CallModel.normalise X) n 0 init None) as [[c [[lab i]|]]|e] eqn:K; cbn in E; try discriminate.
  injection E as <-. cbn in H. rewrite Q by (auto; lia). reflexivity.
Qed.

(** KLIEP: when one more iteration does not change the weights, no larger limit does. *)
Lemma kliep_limit A b tol : forall n obj alpha a, ReweightModel.kliep_loop A b tol n obj alpha = Ok a -> ReweightModel.kliep_loop A b tol (S n) obj alpha = Ok a ->
  forall m, n <= m -> ReweightModel.kliep_loop A b tol m obj alpha = Ok a.
Proof.
  induction n as [|n IH]; intros obj alpha a E1 E2 m LE.
  - cbn in E1. injection E1 as <-. cbn [ReweightModel.kliep_loop] in E2. destruct (ReweightModel.kliep_iter A b alpha) as [al|] eqn:I; [|discriminate]. cbn [bind] in E2.
    assert (al = alpha) by (destruct (Rltb _ _); now injection E2). subst al. clear E2 LE. revert obj. induction m as [|m IHm]; intros obj; [reflexivity|]. cbn [ReweightModel.kliep_loop]. rewrite I. cbn [bind]. cbv zeta.
    destruct (Rltb _ _); [reflexivity|apply IHm].
  - destruct m as [|m]; [lia|]. change (ReweightModel.kliep_loop A b tol (S n) obj alpha) with (alpha' <- ReweightModel.kliep_iter A b alpha ;; (if Rltb (Rabs (ReweightModel.kliep_obj A alpha' - obj)) tol then Ok alpha' else ReweightModel.kliep_loop A b tol n (ReweightModel.kliep_obj A alpha') alpha')) in E1.
    change (ReweightModel.kliep_loop A b tol (S (S n)) obj alpha) with (alpha' <- ReweightModel.kliep_iter A b alpha ;; (if Rltb (Rabs (ReweightModel.kliep_obj A alpha' - obj)) tol then Ok alpha' else ReweightModel.kliep_loop A b tol (S n) (ReweightModel.kliep_obj A alpha') alpha')) in E2.
    cbn [ReweightModel.kliep_loop]. destruct (ReweightModel.kliep_iter A b alpha) as [al|]; [|discriminate]. cbn [bind] in *. cbv zeta. destruct (Rltb _ _); [exact E1|]. apply IH; auto. lia.
Qed.
Theorem C235_kliep : forall {Row} kern choice nc tol n (X : list Row) sda f, ReweightModel.kliep_fit Row kern choice nc tol n X sda = Ok f -> ReweightModel.kliep_fit Row kern choice nc tol (S n) X sda = Ok f ->
  forall m, n <= m -> ReweightModel.kliep_fit Row kern choice nc tol m X sda = Ok f.
Proof.
  intros Row kern choice nc tol n X sda f E1 E2 m LE. unfold ReweightModel.kliep_fit, ReweightModel.kliep_optim in *.
  destruct (ReweightModel.rw_split Row X sda) as [st|]; [|discriminate]. cbn [bind] in *. destruct (np_take choice (snd st)) as [ce|]; [|discriminate]. cbn [bind] in *. cbv zeta in *.
  destruct (np_matvec _ _) as [mm|]; [|discriminate]. cbn [bind] in *.
  apply bind_ok in E1 as [a1 [E1 F1]]. apply bind_ok in E2 as [a2 [E2 F2]]. injection F1 as <-. injection F2 as ->. rewrite (kliep_limit _ _ _ _ _ _ _ E1 E2 m LE). reflexivity.
Qed.

(** A TransferJointMatching run that stops by itself; k-means of one sample from its own position; KLIEP with a constant kernel; a JDOT run with a constant loss. *)
Definition still_step (i : nat) (s : unit * option (nat * list (list R))) : res ((unit * option (nat * list (list R))) * R * R) := Ok ((tt, Some (i, [])), (10 - INR i)%R, (20 - INR i)%R).
Lemma norm_unit : CallModel.normalise [1; 0]%R = [1; 0]%R.
Proof.
  unfold CallModel.normalise. assert (E : LossModel.norm2 [1; 0]%R = 1%R) by (unfold LossModel.norm2, dot; cbn; replace (1 * 1 + (0 * 0 + 0))%R with 1%R by lra; apply sqrt_1).
  rewrite E. cbn. repeat apply (f_equal2 (@cons R)); try reflexivity; lra.
Qed.
Lemma still_large i : (exists p, small_change 1 (10 - INR (S i)) (Some (10 - INR i)%R) = false /\ small_change 1 (20 - INR (S i)) (Some (20 - INR i)%R) = false /\ p = i).
Proof.
  exists i. unfold small_change. assert (Q : forall c : R, Rltb (Rabs (c - INR (S i) - (c - INR i))) 1 = false).
  { intros c. rewrite S_INR. replace (c - (INR i + 1) - (c - INR i))%R with (-1)%R by ring. rewrite Rabs_left by lra. unfold Rltb. destruct (Rlt_dec _ _); [lra|reflexivity]. }
  rewrite !Q. auto.
Qed.
Lemma kliep_one : ReweightModel.kliep_iter [[1]]%R [1]%R [1]%R = Ok [1]%R.
Proof.
  unfold ReweightModel.kliep_iter. cbn -[Rltb ReweightModel.EPS]. unfold dot. cbn -[Rltb ReweightModel.EPS].
  match goal with |- context [Rltb 0 ?t] => assert (E : t = 1%R) by (unfold ReweightModel.EPS; lra) end.
  rewrite E. assert (P : Rltb 0 1 = true) by (unfold Rltb; destruct (Rlt_dec 0 1); [reflexivity|lra]). rewrite P. do 2 f_equal. unfold dot. cbn. field.
Qed.
Example C235_ex :
  MapModel.tjm_fit nat (fun _ => Ok 7) (fun _ => [1; 1]%R) (fun _ => 5%R) [true; false] (1/10) 3 = Ok (7, [5%R]) /\
  (exists f, CallModel.kmeans_fit 1 2 3 (1/10) [[1; 0]]%R (Some [[1; 0]]%R) [] = Ok f /\ CallModel.f_n_iter f = 1) /\
  (let run n := ReweightModel.kliep_fit nat (fun _ _ => 1%R) [0] 1 (1/10) n [5; 6] (UtilsModel.SDArr [1; -2]%Z) in run 1 = run 0 /\ exists f, run 0 = Ok f) /\
  (let run n := jdot_loop still_step 1 n n 0 (tt, None) None None in
   (exists s, run 2 = Ok (s, [10 - INR 0; 10 - INR 1]%R, [20 - INR 0; 20 - INR 1]%R, true)) /\ exists s, run 3 = Ok (s, [10 - INR 0; 10 - INR 1; 10 - INR 2]%R, [20 - INR 0; 20 - INR 1; 20 - INR 2]%R, true)).
Proof.
  split; [|split; [|split]].
  - unfold MapModel.tjm_fit. cbn. unfold Reqb, Rltb. destruct (Req_EM_T _ _); [reflexivity|]. destruct (Rlt_dec _ _) as [|N]; [reflexivity|]. exfalso. apply N.
    apply Rle_lt_trans with 0%R; [|lra]. rewrite Rabs_left by lra. lra.
  - unfold CallModel.kmeans_fit, CallModel.run_single. cbn [map]. rewrite norm_unit. cbn [CallModel.kloop mapM]. change (CallModel.closest [[1; 0]]%R [1; 0]%R) with (@Ok nat 0). cbn [bind]. cbv zeta.
    assert (E : CallModel.allclose (1 / 10) [[1; 0]]%R (CallModel.update 1 2 [0] [[1; 0]]%R [[1; 0]]%R) = true).
    { unfold CallModel.allclose, CallModel.update, CallModel.new_centroid, CallModel.vsum_rows, CallModel.members, vadd. cbn. unfold CallModel.close1.
      assert (Q : forall a b, a = b -> Rleb (Rabs (a - b)) (1 / 10 + 1 / 10 ^ 5 * Rabs b) = true).
      { intros a b ->. unfold Rleb. destruct (Rle_dec _ _) as [|N]; [reflexivity|]. exfalso. apply N. rewrite Rminus_diag_eq by reflexivity. rewrite Rabs_R0. pose proof (Rabs_pos b). lra. }
      rewrite !Q by lra. reflexivity. }
    rewrite E. cbn. eexists. split; reflexivity.
  - cbv zeta. unfold ReweightModel.kliep_fit, ReweightModel.kliep_optim. cbn -[ReweightModel.kliep_iter Rltb ln ReweightModel.kliep_obj].
    match goal with |- context [ReweightModel.kliep_iter ?A ?b ?al] => replace (ReweightModel.kliep_iter A b al) with (@Ok (list R) [1]%R) end.
    + cbn -[Rltb ln ReweightModel.kliep_obj]. split; [destruct (Rltb _ _); reflexivity|eexists; reflexivity].
    + rewrite <- kliep_one. f_equal. repeat apply (f_equal2 (@cons R)); try reflexivity. unfold mean, col. cbn. lra.
  - cbv zeta. destruct (still_large 0) as (p0 & A0 & B0 & _). destruct (still_large 1) as (p1 & A1 & B1 & _).
    split; cbn [jdot_loop still_step bind]; cbn -[small_change INR]; unfold small_change at 1 2; rewrite ?A0, ?B0; cbn -[small_change INR]; rewrite ?A1, ?B1; cbn -[small_change INR]; eexists; reflexivity.
Qed.
