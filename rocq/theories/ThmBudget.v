(** * C214: more iterations, more restarts, a smaller tolerance, more candidates or looser bounds never give a worse result *)
From Coq Require Import String List ZArith Bool Arith Lia Reals Lra Psatz.
From Verif Require Import Np NpFacts Labels Spec UtilsModel UtilsSpec UtilsProofs SelectModel RVec RVecFacts FWModel FWSpec FWProofs ThmFW MapModel RMat ReweightModel ReweightSpec ReweightProofs ThmReweight ThmMmd.
From Verif Require Import OTModel OTSpec OTProofs ThmJdot.
From Verif Require Import LossModel LossSpec LossProofs ThmLoss CallModel CallSpec CallProofs ThmCall ThmKmeans.
From Verif Require Import ThmAttain.
Import ListNotations.
Local Open Scope nat_scope.
Local Open Scope list_scope.

(** ** Spherical k-means: max_iter, tol and n_init *)
Lemma close1_mono tol tol' a b : (tol' <= tol)%R -> close1 tol' a b = true -> close1 tol a b = true.
Proof. unfold close1. rewrite !Rleb_iff. lra. Qed.
Lemma allclose_mono tol tol' A B : (tol' <= tol)%R -> allclose tol' A B = true -> allclose tol A B = true.
Proof.
  intros L. unfold allclose. rewrite !forallb_forall. intros H p Hp. specialize (H p Hp). rewrite !forallb_forall in *. intros q Hq. specialize (H q Hq).
  now apply (close1_mono tol tol').
Qed.
Lemma kloop_more K d tol tol' X : rect d X -> (forall x, In x X -> unit x) -> not_tiny d X -> (tol' <= tol)%R ->
  forall fuel fuel' n cents last c labels m c' labels' m', fuel <= fuel' -> rect d cents -> length cents <= K ->
  kloop K d tol X (S fuel) n cents last = Ok (c, Some (labels, m)) -> kloop K d tol' X (S fuel') n cents last = Ok (c', Some (labels', m')) ->
  (inertia_of X c' labels' <= inertia_of X c labels)%R.
Proof.
  intros HX HU NT HT. induction fuel as [|fuel IH]; intros fuel' n cents last c labels m c' labels' m' LF HC HK H H'.
  - pose proof (kloop_descent K d tol' X HX HU NT _ _ _ _ _ _ _ HC HK H') as (l0 & E0 & D0).
    cbn [kloop] in H. rewrite E0 in H. cbn [bind] in H. destruct (closest_labels _ _ _ E0) as (L & B & _).
    destruct (allclose tol cents _) eqn:A; injection H as <- <- <-; [exact D0|].
    cbn [kloop] in H'. rewrite E0 in H'. cbn [bind] in H'.
    destruct (allclose tol' cents _) eqn:A'; [apply (allclose_mono tol) in A'; [congruence|exact HT]|].
    destruct fuel' as [|fuel']; [cbn [kloop] in H'; injection H' as <- <- <-; lra|].
    destruct (kloop_descent K d tol' X HX HU NT _ _ _ _ _ _ _ (update_rect K d l0 X cents HX) (eq_ind_r (fun z => z <= K) HK (update_length K d l0 X cents)) H') as (l1 & E1 & D1).
    destruct (closest_labels _ _ _ E1) as (_ & _ & D2). rewrite update_length in D2. specialize (D2 l0 L B). lra.
  - pose proof (kloop_descent K d tol' X HX HU NT _ _ _ _ _ _ _ HC HK H') as (l0 & E0 & D0).
    change (kloop K d tol X (S (S fuel)) n cents last) with (labels <- mapM (closest cents) X ;;
      let new := update K d labels X cents in
      if allclose tol cents new then Ok (cents, Some (labels, n)) else kloop K d tol X (S fuel) (S n) new (Some (labels, n))) in H.
    destruct fuel' as [|fuel']; [lia|].
    change (kloop K d tol' X (S (S fuel')) n cents last) with (labels <- mapM (closest cents) X ;;
      let new := update K d labels X cents in
      if allclose tol' cents new then Ok (cents, Some (labels, n)) else kloop K d tol' X (S fuel') (S n) new (Some (labels, n))) in H'.
    rewrite E0 in H, H'. cbn [bind] in H, H'. cbv zeta in H, H'. destruct (allclose tol cents _) eqn:A; [injection H as <- <- <-; exact D0|].
    destruct (allclose tol' cents _) eqn:A'; [apply (allclose_mono tol) in A'; [congruence|exact HT]|].
    apply (IH fuel' _ _ _ _ _ _ _ _ _ ltac:(lia) (update_rect K d l0 X cents HX) (eq_ind_r (fun z => z <= K) HK (update_length K d l0 X cents)) H H').
Qed.

(** From the same initial centres, more iterations and a smaller tolerance do not increase inertia_. *)
Theorem C214_kmeans_iterations : forall K d m m' tol tol' X c0 f f', rect d X -> rect d c0 -> length c0 <= K -> Forall far X -> clear_groups d X ->
  m <= m' -> (tol' <= tol)%R -> kmeans_fit K d m tol X (Some c0) [] = Ok f -> kmeans_fit K d m' tol' X (Some c0) [] = Ok f' ->
  (f_inertia f' <= f_inertia f)%R.
Proof.
  intros K d m m' tol tol' X c0 f f' HX HC HK FX CG HM HT H H'. unfold kmeans_fit in H, H'.
  destruct (run_single K d m tol (map normalise X) c0) as [[[i c] n]|] eqn:E; [|discriminate]. injection H as <-.
  destruct (run_single K d m' tol' (map normalise X) c0) as [[[i' c'] n']|] eqn:E'; [|discriminate]. injection H' as <-. cbn [f_inertia].
  unfold run_single in E, E'. destruct (kloop K d tol _ m _ _ _) as [[cc [[l k]|]]|] eqn:Q; try discriminate. destruct (kloop K d tol' _ m' _ _ _) as [[cc' [[l' k']|]]|] eqn:Q'; try discriminate.
  injection E as <- <- <-. injection E' as <- <- <-. destruct m as [|m]; [discriminate|]. destruct m' as [|m']; [lia|].
  refine (kloop_more K d tol tol' (map normalise X) _ _ _ HT m m' 0 c0 None _ _ _ _ _ _ _ HC HK Q Q').
  - intros r Hr. apply in_map_iff in Hr as (x & <- & Hx). unfold normalise. rewrite map_length. now apply HX.
  - intros x Hx. apply in_map_iff in Hx as (y & <- & Hy). apply normalise_unit. rewrite Forall_forall in FX. auto.
  - now apply clear_not_tiny.
  - lia.
Qed.
(** More random initialisations never increase inertia_; neither does doing this with more iterations and a smaller tolerance. *)
Theorem C214_kmeans_restarts : forall K d m tol X inits more f f', kmeans_fit K d m tol X None inits = Ok f -> kmeans_fit K d m tol X None more = Ok f' ->
  incl inits more -> (f_inertia f' <= f_inertia f)%R.
Proof.
  intros K d m tol X inits more f f' H H' I. destruct (C68_best_initialisation _ _ _ _ _ _ _ H) as (i & c0 & N & E & _).
  destruct (C68_best_initialisation _ _ _ _ _ _ _ H') as (i1 & c1 & _ & _ & B). apply nth_error_In, I, In_nth_error in N as [j N].
  destruct (B j c0 N) as (fj & Ej & Lj & _). rewrite E in Ej. injection Ej as <-. exact Lj.
Qed.
Theorem C214_kmeans : forall K d m m' tol tol' X inits more f f', rect d X -> Forall far X -> clear_groups d X ->
  (forall c, In c inits -> rect d c /\ length c <= K) -> m <= m' -> (tol' <= tol)%R -> incl inits more ->
  kmeans_fit K d m tol X None inits = Ok f -> kmeans_fit K d m' tol' X None more = Ok f' -> (f_inertia f' <= f_inertia f)%R.
Proof.
  intros K d m m' tol tol' X inits more f f' HX FX CG HI HM HT I H H'. destruct (C68_best_initialisation _ _ _ _ _ _ _ H) as (i & c0 & N & E & _).
  destruct (C68_best_initialisation _ _ _ _ _ _ _ H') as (i1 & c1 & _ & _ & B). apply nth_error_In in N. pose proof (HI _ N) as [HC HK].
  apply I, In_nth_error in N as [j N]. destruct (B j c0 N) as (fj & Ej & Lj & _).
  pose proof (C214_kmeans_iterations K d m m' tol tol' X c0 f fj HX HC HK FX CG HM HT E Ej). lra.
Qed.
Theorem C214_bandwidths : forall lik n_features var l more a g a' g', kliep_select lik n_features var (GList l) = Ok (a, g) ->
  kliep_select lik n_features var (GList more) = Ok (a', g') -> incl l more -> (lik g <= lik g')%R.
Proof.
  intros lik nf var l more a g a' g' H H' I. destruct (C80_selects_best_bandwidth _ _ _ _ _ _ H) as [(b & Hb & S) _].
  destruct (C80_selects_best_bandwidth _ _ _ _ _ _ H') as [_ B]. exact (B b g (I _ Hb) S).
Qed.

(** ** Kernel mean matching *)
Theorem C214_kmm : forall Row D phi kern slsqp B B' eps eps' mi mi' (X : list Row) sda w w' Xs Xs', kernel_of D phi kern -> minimises slsqp ->
  kmm_fit Row slsqp kern B eps mi "scipy" X sda = Ok (w, Xs) -> kmm_fit Row slsqp kern B' eps' mi' "scipy" X sda = Ok (w', Xs') ->
  (B <= B')%R -> (kmm_slack eps (length Xs) <= kmm_slack eps' (length Xs))%R ->
  let Xt := rows_of is_target (eff_domain (length X) sda) X in Xs <> [] -> Xt <> [] ->
  Xs' = Xs /\ (mmd2 D phi w' Xs Xt <= mmd2 D phi w Xs Xt)%R.
Proof.
  intros Row D phi kern slsqp B B' eps eps' mi mi' X sda w w' Xs Xs' Hk Hm H H' HB HE Xt Ns Nt.
  destruct (C177_kmm_scipy _ _ _ _ _ _ _ _ _ _ _ _ Hk Hm H) as [Es P]. destruct (C177_kmm_scipy _ _ _ _ _ _ _ _ _ _ _ _ Hk Hm H') as [Es' P'].
  assert (E : Xs' = Xs) by congruence. split; [exact E|]. clear Es Es'. subst Xs'. destruct (P Ns Nt) as [(Lw & Fw & Sw) _]. destruct (P' Ns Nt) as [_ O]. apply O.
  split; [exact Lw|]. split.
  - eapply Forall_impl; [|exact Fw]. intros t Ht. cbn in Ht. lra.
  - pose proof (pos_INR (length Xs)). nra.
Qed.

(** With the Frank-Wolfe solver a larger max_iter may be worse: the steps have fixed lengths, and the last iterate is returned.
    One source at 1, one target at 2/3, linear kernel, eps = 1: three iterations reach the optimal weight 2/3 exactly, the fourth leaves it. *)
Lemma fw_ex Q c A b lb ub slsqp n x : Q = [[1]]%R -> c = [-(2/3)]%R -> A = [[1]; [-1]]%R -> b = [2; 0]%R ->
  fw_loop (qp_jac [[1]]%R (Some [-(2/3)]%R)) [1]%R 0 2 1 n [1]%R = Ok [x]%R ->
  exists f, qp_solve slsqp Q (Some c) (Some A) (Some b) None None lb ub None n "frank-wolfe" = Ok ([x]%R, f).
Proof.
  intros -> -> -> -> H. unfold qp_solve. change (String.eqb "frank-wolfe" "scipy") with false. change (String.eqb "frank-wolfe" "frank-wolfe") with true. cbv iota.
  unfold qp_solve_fw, fw_validate. cbn -[frank_wolfe FWModel.allclose Rltb qp_jac].
  replace (FWModel.allclose [1]%R [(- (-1))]%R) with (Ok true).
  2:{ unfold FWModel.allclose, np_map2. cbn -[Rleb]. rewrite (proj2 (Rleb_iff _ _)); auto.
      replace (1 - - (-1))%R with 0%R by ring. rewrite Rabs_R0. pose proof (Rabs_pos (- (-1))). lra. }
  cbn -[frank_wolfe Rltb qp_jac]. rewrite (proj2 (Rltb_false _ _)) by lra. cbn -[frank_wolfe qp_jac].
  unfold frank_wolfe. replace (- 0)%R with 0%R by ring. cbn [map length].
  replace (/ 1 * ((2 - 0) / 2) / INR 1)%R with 1%R by (cbn; field). rewrite H. cbn. eauto.
Qed.
Lemma fw_one k x y : (if Rle_dec 0 (x - 2/3) then y = (1 - 2 / (INR k + 1)) * x else y = (1 - 2 / (INR k + 1)) * x + 2 / (INR k + 1) * 2)%R ->
  fw_step (qp_jac [[1]]%R (Some [-(2/3)]%R)) [1]%R 0 2 k [x]%R = Ok [y]%R.
Proof.
  intros H. unfold fw_step, fw_vertex, qp_jac, np_map2. cbn -[Rleb INR].
  replace ((1 * x + 0 + - (2 / 3)) * / 1)%R with (x - 2/3)%R by field.
  destruct (Rle_dec 0 (x - 2/3)) as [L|L]; [rewrite (proj2 (Rleb_iff _ _)) by exact L|rewrite (proj2 (Rleb_false _ _)) by lra]; cbn -[INR]; f_equal; f_equal; subst y; rewrite Rinv_1; ring.
Qed.
Lemma fw_three : fw_loop (qp_jac [[1]]%R (Some [-(2/3)]%R)) [1]%R 0 2 1 3 [1]%R = Ok [2/3]%R.
Proof.
  cbn [fw_loop]. rewrite (fw_one 1 1 0) by (destruct (Rle_dec _ _); cbn; lra). cbn [bind]. rewrite (fw_one 2 0 (4/3)) by (destruct (Rle_dec _ _); cbn; lra). cbn [bind].
  rewrite (fw_one 3 (4/3) (2/3)) by (destruct (Rle_dec _ _); cbn; lra). reflexivity.
Qed.
Lemma fw_four : fw_loop (qp_jac [[1]]%R (Some [-(2/3)]%R)) [1]%R 0 2 1 4 [1]%R = Ok [2/5]%R.
Proof.
  cbn [fw_loop]. rewrite (fw_one 1 1 0) by (destruct (Rle_dec _ _); cbn; lra). cbn [bind]. rewrite (fw_one 2 0 (4/3)) by (destruct (Rle_dec _ _); cbn; lra). cbn [bind].
  rewrite (fw_one 3 (4/3) (2/3)) by (destruct (Rle_dec _ _); cbn; lra). cbn [bind]. rewrite (fw_one 4 (2/3) (2/5)) by (destruct (Rle_dec _ _); cbn; lra). reflexivity.
Qed.
Lemma kmm_ex slsqp n x : fw_loop (qp_jac [[1]]%R (Some [-(2/3)]%R)) [1]%R 0 2 1 n [1]%R = Ok [x]%R ->
  kmm_fit R slsqp Rmult 1000 (Some 1%R) n "frank-wolfe" [1; 2/3]%R (SDArr [1; -2]%Z) = Ok ([x], [1])%R.
Proof.
  intros H. unfold kmm_fit. cbn -[kmm_optim]. unfold kmm_optim, kmm_eps. cbv zeta.
  match goal with |- context [qp_solve slsqp ?Q (Some ?c) (Some ?A) (Some ?b) _ _ ?lb ?ub] =>
    destruct (fw_ex Q c A b lb ub slsqp n x) as [f E]; [| | | |exact H|rewrite E; reflexivity] end.
  - cbn. repeat (apply f_equal2); try reflexivity; lra.
  - unfold mean. cbn. repeat (apply f_equal2); try reflexivity; lra.
  - cbn. repeat (apply f_equal2); try reflexivity; lra.
  - cbn. repeat (apply f_equal2); try reflexivity; lra.
Qed.
Theorem C214_frank_wolfe_refuted : forall slsqp, exists w3 w4,
  kernel_of 1 (fun (x : R) (_ : nat) => x) Rmult /\
  kmm_fit R slsqp Rmult 1000 (Some 1%R) 3 "frank-wolfe" [1; 2/3]%R (SDArr [1; -2]%Z) = Ok (w3, [1]%R) /\
  kmm_fit R slsqp Rmult 1000 (Some 1%R) 4 "frank-wolfe" [1; 2/3]%R (SDArr [1; -2]%Z) = Ok (w4, [1]%R) /\
  mmd2 1 (fun (x : R) (_ : nat) => x) w3 [1]%R [2/3]%R = 0%R /\ (0 < mmd2 1 (fun (x : R) (_ : nat) => x) w4 [1]%R [2/3]%R)%R.
Proof.
  intros slsqp. exists [2/3]%R, [2/5]%R. split; [intros x y; cbn; lra|]. split; [apply kmm_ex, fw_three|]. split; [apply kmm_ex, fw_four|].
  split; unfold mmd2, weighted, Rsqr; cbn; lra.
Qed.

(** ** JDOT: n_iter_max and tol *)
Section Loop.
  Context {St : Type}.
  Variable step : nat -> St -> res (St * R * R).
  Lemma small_mono tol tol' x p : (tol' <= tol)%R -> small_change tol' x p = true -> small_change tol x p = true.
  Proof. intros L. destruct p as [p|]; [|easy]. cbn. rewrite !Rltb_iff. lra. Qed.
  Lemma loop_prefix tol tol' n n' : (tol' <= tol)%R -> n <= n' -> forall k k' i s pot plab r lots llabs w r' lots' llabs' w',
    i + k = n -> i + k' = n' -> jdot_loop step tol n k i s pot plab = Ok (r, lots, llabs, w) -> jdot_loop step tol' n' k' i s pot plab = Ok (r', lots', llabs', w') ->
    exists more more', lots' = lots ++ more /\ llabs' = llabs ++ more'.
  Proof.
    intros HT HN. induction k as [|k IH]; intros k' i s pot plab r lots llabs w r' lots' llabs' w' E E' H H'.
    - injection H as <- <- <- <-. now exists lots', llabs'.
    - destruct k' as [|k']; [lia|]. cbn [jdot_loop] in H, H'. destruct (step i s) as [[[s1 lot] llab]|]; [|discriminate]. cbn [bind] in H, H'.
      assert (P : exists a b, lots' = lot :: a /\ llabs' = llab :: b).
      { destruct (small_change tol' lot pot); [injection H' as <- <- <- <-; now exists [], []|].
        destruct (small_change tol' llab plab); [injection H' as <- <- <- <-; now exists [], []|].
        destruct (i =? n' - 1); [injection H' as <- <- <- <-; now exists [], []|].
        destruct (jdot_loop step tol' n' k' _ _ _ _) as [[[[? a] b] ?]|]; [|discriminate]. injection H' as <- <- <- <-. now exists a, b. }
      assert (One : lots = [lot] -> llabs = [llab] -> exists more more', lots' = lots ++ more /\ llabs' = llabs ++ more').
      { intros -> ->. destruct P as (a & b & -> & ->). now exists a, b. }
      destruct (small_change tol lot pot) eqn:A1; [injection H as <- <- <- <-; now apply One|].
      destruct (small_change tol llab plab) eqn:A2; [injection H as <- <- <- <-; now apply One|].
      destruct (i =? n - 1) eqn:A3; [injection H as <- <- <- <-; now apply One|].
      destruct (jdot_loop step tol n k (S i) s1 (Some lot) (Some llab)) as [[[[? a] b] ?]|] eqn:Q; [|discriminate]. injection H as <- <- <- <-.
      destruct (small_change tol' lot pot) eqn:B1; [apply (small_mono tol) in B1; [congruence|exact HT]|].
      destruct (small_change tol' llab plab) eqn:B2; [apply (small_mono tol) in B2; [congruence|exact HT]|].
      apply Nat.eqb_neq in A3. destruct (i =? n' - 1) eqn:B3.
      + apply Nat.eqb_eq in B3. assert (k' = 0) by lia. lia.
      + destruct (jdot_loop step tol' n' k' (S i) s1 (Some lot) (Some llab)) as [[[[? a'] b'] ?]|] eqn:Q'; [|discriminate]. injection H' as <- <- <- <-.
        destruct (IH k' (S i) _ _ _ _ _ _ _ _ _ _ _ ltac:(lia) ltac:(lia) Q Q') as (m & m' & -> & ->). now exists m, m'.
  Qed.
End Loop.
Lemma nth_last (l : list R) : nth (length l - 1) l 0%R = last l 0%R.
Proof. induction l as [|a [|b l] IH]; try reflexivity. cbn [length] in *. replace (S (S (length l)) - 1) with (S (S (length l) - 1)) by lia. exact IH. Qed.
Lemma descending_last l more : descending (l ++ more) -> l <> [] -> (last (l ++ more) 0 <= last l 0)%R.
Proof.
  intros D N. induction more as [|x more IH] using rev_ind; [rewrite app_nil_r; lra|].
  assert (D' : descending (l ++ more)).
  { intros i Hi. specialize (D i). rewrite app_assoc, app_length in D. cbn in D. specialize (D ltac:(lia)). rewrite !(app_nth1 (l ++ more)) in D by lia. exact D. }
  specialize (IH D'). rewrite app_assoc, last_last. eapply Rle_trans; [|exact IH].
  set (q := l ++ more) in *. assert (Nq : q <> []) by (unfold q; destruct l; [congruence|discriminate]).
  rewrite app_assoc in D. fold q in D. specialize (D (length q - 1)). rewrite app_length in D. cbn in D. assert (0 < length q) by (destruct q; [congruence|cbn; lia]).
  specialize (D ltac:(lia)). replace (S (length q - 1)) with (length q) in D by lia. rewrite app_nth2, Nat.sub_diag in D by lia. cbn [nth] in D.
  rewrite app_nth1, nth_last in D by lia. exact D.
Qed.
Lemma loop_some {St} (step : nat -> St -> res (St * R * R)) tol n : forall k i s pot plab r lots llabs w, 0 < k -> jdot_loop step tol n k i s pot plab = Ok (r, lots, llabs, w) -> lots <> [].
Proof.
  intros k i s pot plab r lots llabs w L H. destruct k as [|k]; [lia|]. cbn [jdot_loop] in H. destruct (step i s) as [[[s1 lot] llab]|]; [|discriminate]. cbn [bind] in H.
  destruct (small_change tol lot pot); [injection H as <- <- <- <-; discriminate|]. destruct (small_change tol llab plab); [injection H as <- <- <- <-; discriminate|].
  destruct (i =? n - 1); [injection H as <- <- <- <-; discriminate|]. destruct (jdot_loop step tol n k _ _ _ _) as [[[[? ?] ?] ?]|]; [|discriminate]. injection H as <- <- <- <-. discriminate.
Qed.

(** A longer run starts as the shorter one did, and its last objective is no larger. *)
Theorem C214_jdot_regression : forall Est solve (fit : list R -> option (list R) -> res (Est * list R)) H alpha tol tol' n n' dist ys nt ws wt est lot llab T w est' lot' llab' T' w',
  exact_ot solve -> least_squares nt H fit -> (forall f, H f -> length f = nt) -> H (repeat 0%R nt) -> (0 <= alpha)%R ->
  0 < nt -> matrix (length ys) nt dist -> (forall l, ws = Some l -> length l = length ys) ->
  (forall l, wt = Some l -> length l = nt /\ Forall (fun x => 0 < x)%R l) -> n <= n' -> (tol' <= tol)%R ->
  solve_jdot_regression solve fit alpha tol n dist ys nt ws wt = Ok (est, lot, llab, T, w) ->
  solve_jdot_regression solve fit alpha tol' n' dist ys nt ws wt = Ok (est', lot', llab', T', w') ->
  (exists more, lot' = lot ++ more) /\ (last lot' 0 <= last lot 0)%R.
Proof.
  intros Est solve fit H alpha tol tol' n n' dist ys nt ws wt est lot llab T w est' lot' llab' T' w' Hs Hf HL H0 Ha Hn HM Hws Hwt LN LT E E'.
  destruct (C178_regression _ _ _ _ _ _ _ _ _ _ _ _ _ _ _ _ _ Hs Hf HL H0 Ha Hn HM Hws Hwt E') as [D _].
  unfold solve_jdot_regression in E, E'. apply bind_ok in E as [[[[s lo] ll] wa] [El E]]. apply bind_ok in E' as [[[[s' lo'] ll'] wa'] [El' E']]. cbn in E, E'.
  destruct (snd s) as [[e T0]|] eqn:Es; [|discriminate]. injection E as <- <- <- <- <-. destruct (snd s') as [[e' T0']|]; [|discriminate]. injection E' as <- <- <- <- <-.
  destruct (loop_prefix _ tol tol' n n' LT LN n n' 0 _ None None _ _ _ _ _ _ _ _ eq_refl eq_refl El El') as (more & _ & -> & _). split; [now exists more|].
  apply descending_last; [exact D|]. destruct n as [|n]; [cbn in El; injection El as <- <- <- <-; discriminate|]. refine (loop_some _ _ _ _ _ _ _ _ _ _ _ _ _ El). lia.
Qed.
Theorem C214_jdot_classification : forall Est Xrow solve (fit : list Xrow -> list Z -> list R -> res Est) (pred : Est -> list Xrow -> tgt_pred) metric
    (score : Est -> Xrow -> list R) (H : (Xrow -> list R) -> Prop) h0 alpha tol tol' n n' dist ys Xt ws wt est lot llab T w est' lot' llab' T' w',
  exact_ot solve -> (forall est X, pred_matrix metric (pred est X) = Ok (map (score est) X)) -> (forall h x, H h -> length (h x) = length (unique ys)) ->
  minimises_loss metric ys H score fit -> H h0 -> (forall x c, In c ys -> (class_loss metric ys c (h0 x) <= 10)%R) -> (0 <= alpha)%R ->
  Xt <> [] -> matrix (length ys) (length Xt) dist -> (forall l, ws = Some l -> length l = length ys) -> (forall l, wt = Some l -> length l = length Xt) ->
  n <= n' -> (tol' <= tol)%R ->
  solve_jdot_classification solve fit pred metric alpha 0 tol n dist ys Xt ws wt = Ok (est, lot, llab, T, w) ->
  solve_jdot_classification solve fit pred metric alpha 0 tol' n' dist ys Xt ws wt = Ok (est', lot', llab', T', w') ->
  (exists more, lot' = lot ++ more) /\ (last lot' 0 <= last lot 0)%R.
Proof.
  intros Est Xrow solve fit pred metric score H h0 alpha tol tol' n n' dist ys Xt ws wt est lot llab T w est' lot' llab' T' w' Hs Hp HL Hf H0 Ht Ha Nx HM Hws Hwt LN LT E E'.
  destruct (C178_classification _ _ _ _ _ _ _ _ _ _ _ _ _ _ _ _ _ _ _ _ _ _ Hs Hp HL Hf H0 Ht Ha Nx HM Hws Hwt E') as [D _].
  unfold solve_jdot_classification in E, E'. apply bind_ok in E as [[[[s lo] ll] wa] [El E]]. apply bind_ok in E' as [[[[s' lo'] ll'] wa'] [El' E']]. cbn in E, E'.
  destruct (snd s) as [[e T0]|] eqn:Es; [|discriminate]. injection E as <- <- <- <- <-. destruct (snd s') as [[e' T0']|]; [|discriminate]. injection E' as <- <- <- <- <-.
  destruct (loop_prefix _ tol tol' n n' LT LN n n' 0 _ None None _ _ _ _ _ _ _ _ eq_refl eq_refl El El') as (more & _ & -> & _). split; [now exists more|].
  apply descending_last; [exact D|]. destruct n as [|n]; [cbn in El; injection El as <- <- <- <-; discriminate|]. refine (loop_some _ _ _ _ _ _ _ _ _ _ _ _ _ El). lia.
Qed.

(** ** Concrete cases *)
Example C214_ex_bandwidths : exists a g a' g', kliep_select (fun x => x) 2 1 (GList [GNum 1; GAuto]) = Ok (a, g) /\ kliep_select (fun x => x) 2 1 (GList [GAuto; GNum 3; GNum 1]) = Ok (a', g') /\
  incl [GNum 1; GAuto] [GAuto; GNum 3; GNum 1] /\ g = 1%R /\ g' = 3%R.
Proof.
  do 4 eexists. split; [unfold kliep_select, np_argmax, np_argmin; cbn -[Rltb]; decide_R; cbn -[Rltb]; reflexivity|].
  split; [unfold kliep_select, np_argmax, np_argmin; cbn -[Rltb]; decide_R; cbn -[Rltb]; reflexivity|]. split; [intros x [<-|[<-|[]]]; cbn; auto|]. split; reflexivity.
Qed.

Lemma kloop_total K d tol X : forall fuel n cents last, cents <> [] -> exists c r, kloop K d tol X (S fuel) n cents last = Ok (c, Some r).
Proof.
  induction fuel as [|fuel IH]; intros n cents last N.
  - cbn [kloop]. destruct (mapM_ok_all (closest cents) X) as [l E]; [intros x _; unfold closest; destruct cents; [congruence|cbn; eauto]|]. rewrite E. cbn [bind]. cbv zeta. destruct (allclose _ _ _); eauto.
  - change (kloop K d tol X (S (S fuel)) n cents last) with (labels <- mapM (closest cents) X ;;
      let new := update K d labels X cents in
      if allclose tol cents new then Ok (cents, Some (labels, n)) else kloop K d tol X (S fuel) (S n) new (Some (labels, n))).
    destruct (mapM_ok_all (closest cents) X) as [l E]; [intros x _; unfold closest; destruct cents; [congruence|cbn; eauto]|]. rewrite E. cbn [bind]. cbv zeta. destruct (allclose _ _ _); [eauto|].
    apply IH. intros Q. apply (f_equal (@length _)) in Q. rewrite update_length in Q. destruct cents; [congruence|discriminate].
Qed.
(** One sample; one restart with one iteration against two restarts with five. *)
Example C214_ex_kmeans : rect 2 [[3; 4]]%R /\ Forall far [[3; 4]]%R /\ clear_groups 2 [[3; 4]]%R /\
  (forall c, In c [[[0; 2]; [1; 0]]]%R -> rect 2 c /\ length c <= 2) /\ exists f f', kmeans_fit 2 2 1 (1/10) [[3; 4]]%R None [[[0; 2]; [1; 0]]]%R = Ok f /\
  kmeans_fit 2 2 5 0 [[3; 4]]%R None [[[5; 5]; [1; 0]]; [[0; 2]; [1; 0]]]%R = Ok f' /\ (f_inertia f' <= f_inertia f)%R.
Proof.
  destruct C107_never_worse_ex as (A & B & _ & C & _).
  assert (D : forall c, In c [[[0; 2]; [1; 0]]]%R -> rect 2 c /\ length c <= 2) by (intros c [<-|[]]; split; [intros r [<-|[<-|[]]]; reflexivity|cbn; lia]).
  assert (Run : forall m tol c, c <> [] -> exists r, run_single 2 2 (S m) tol (map normalise [[3; 4]]%R) c = Ok r).
  { intros m tol c N. unfold run_single. destruct (kloop_total 2 2 tol (map normalise [[3; 4]]%R) m 0 c None N) as (c' & [l n] & E). rewrite E. cbn. eauto. }
  repeat (split; [assumption|]).
  assert (F1 : exists f, kmeans_fit 2 2 1 (1/10) [[3; 4]]%R None [[[0; 2]; [1; 0]]]%R = Ok f).
  { unfold kmeans_fit, best_of. destruct (Run 0 (1/10)%R [[0; 2]; [1; 0]]%R ltac:(discriminate)) as [[[i c] n] E]. rewrite E. cbn. eauto. }
  assert (F2 : exists f, kmeans_fit 2 2 5 0 [[3; 4]]%R None [[[5; 5]; [1; 0]]; [[0; 2]; [1; 0]]]%R = Ok f).
  { unfold kmeans_fit, best_of. destruct (Run 4 0%R [[5; 5]; [1; 0]]%R ltac:(discriminate)) as [[[i c] n] E]. rewrite E. cbn [bind].
    destruct (Run 4 0%R [[0; 2]; [1; 0]]%R ltac:(discriminate)) as [[[i' c'] n'] E']. rewrite E'. cbn [bind]. destruct (Rltb _ _); eauto. }
  destruct F1 as [f F1], F2 as [f' F2]. exists f, f'. split; [exact F1|]. split; [exact F2|].
  refine (C214_kmeans 2 2 1 5 (1/10) 0 _ _ _ f f' A B C D _ _ _ F1 F2); [lia|lra|]. intros x [<-|[]]. right. now left.
Qed.
(** Two exact minimisers, the second one asked when the first one fails. *)
Definition orelse (s1 s2 : scipy_problem -> (list R -> res R) -> list R -> res (list R * R)) p f x : res (list R * R) :=
  match s1 p f x with Ok r => Ok r | Err _ => s2 p f x end.
Lemma orelse_minimises s1 s2 : minimises s1 -> minimises s2 -> minimises (orelse s1 s2).
Proof. intros H1 H2 p f x0 x v H. unfold orelse in H. destruct (s1 p f x0) as [r|] eqn:E; [|eapply H2; eauto]. injection H as ->. eapply H1; eauto. Qed.
Lemma orelse_fits Row s1 s2 kern B eps mi (X : list Row) sda : (exists r, kmm_fit Row s1 kern B eps mi "scipy" X sda = Ok r) \/ (exists r, kmm_fit Row s2 kern B eps mi "scipy" X sda = Ok r) ->
  exists r, kmm_fit Row (orelse s1 s2) kern B eps mi "scipy" X sda = Ok r.
Proof.
  unfold kmm_fit. destruct (rw_split Row X sda) as [[S T]|]; [|intros [[r H]|[r H]]; discriminate]. cbn [bind fst snd]. unfold kmm_optim, qp_solve. change (String.eqb "scipy" "scipy") with true. cbv iota zeta.
  unfold orelse. intros [[r H]|[r H]]; destruct (s1 _ _ _) as [q|]; cbn [bind] in *; try discriminate; [eauto|eauto|]. destruct (s2 _ _ _) as [q|]; [cbn; eauto|discriminate].
Qed.
(** Sources 1 and 2, target 5: with eps = 1 instead of 1/2 the match is no worse. *)
Example C214_ex_kmm : exists slsqp w w', minimises slsqp /\
  kmm_fit R slsqp Rmult 1000 (Some (1/2)%R) 100 "scipy" [1; 2; 5]%R (SDArr [1; 1; -2]%Z) = Ok (w, [1; 2]%R) /\
  kmm_fit R slsqp Rmult 1000 (Some 1%R) 100 "scipy" [1; 2; 5]%R (SDArr [1; 1; -2]%Z) = Ok (w', [1; 2]%R) /\
  (mmd2 1 (fun (x : R) (_ : nat) => x) w' [1; 2]%R [5]%R <= mmd2 1 (fun (x : R) (_ : nat) => x) w [1; 2]%R [5]%R)%R.
Proof.
  destruct (C177_kmm_solver_exists R Rmult 1000 (Some (1/2)%R) 100 [1; 2; 5]%R (SDArr [1; 1; -2]%Z)) as (s1 & w1 & Xs1 & M1 & E1); [lra|intros e [= <-]; lra|cbn; lia|reflexivity|].
  destruct (C177_kmm_solver_exists R Rmult 1000 (Some 1%R) 100 [1; 2; 5]%R (SDArr [1; 1; -2]%Z)) as (s2 & w2 & Xs2 & M2 & E2); [lra|intros e [= <-]; lra|cbn; lia|reflexivity|].
  pose proof (orelse_minimises s1 s2 M1 M2) as M. destruct (orelse_fits R s1 s2 Rmult 1000 (Some (1/2)%R) 100 _ _ (or_introl (ex_intro _ _ E1))) as [[w Xs] F].
  destruct (orelse_fits R s1 s2 Rmult 1000 (Some 1%R) 100 _ _ (or_intror (ex_intro _ _ E2))) as [[w' Xs'] F'].
  destruct (C177_kmm_scipy R 1 _ Rmult _ _ _ _ _ _ _ _ line_kernel M F) as (EX & _). cbn in EX. subst Xs.
  destruct (C214_kmm R 1 _ Rmult _ 1000 1000 (Some (1/2)%R) (Some 1%R) 100 100 _ _ w w' _ _ line_kernel M F F') as (EX' & O); [lra|cbn; lra|discriminate|discriminate|].
  subst Xs'. exists (orelse s1 s2), w, w'. split; [exact M|]. split; [exact F|]. split; [exact F'|exact O].
Qed.
Lemma jdot_ex_run n tol : n = 1 \/ n = 2 -> exists lot llab T w, solve_jdot_regression one_target any_number (1/2) tol n [[1]; [4]]%R [0; 2]%R 1 None None = Ok (tt, lot, llab, T, w).
Proof.
  intros [-> | ->]; unfold solve_jdot_regression; cbn [length]; rewrite (proj1 halves), (proj2 halves); cbn [jdot_loop]; unfold reg_step; cbn -[small_change spent mean inner_mat one_target jdot_cost];
    rewrite !one_target_half; cbn -[small_change spent mean inner_mat one_target jdot_cost];
    repeat (rewrite ?one_target_half; cbn -[small_change spent mean inner_mat one_target jdot_cost]; match goal with |- context [small_change ?a ?b ?c] => destruct (small_change a b c) end);
    rewrite ?one_target_half; cbn -[spent mean inner_mat jdot_cost one_target]; repeat eexists; reflexivity.
Qed.
Example C214_ex_jdot : exists lot llab T w lot' llab' T' w',
  solve_jdot_regression one_target any_number (1/2) (1/10) 1 [[1]; [4]]%R [0; 2]%R 1 None None = Ok (tt, lot, llab, T, w) /\
  solve_jdot_regression one_target any_number (1/2) 0 2 [[1]; [4]]%R [0; 2]%R 1 None None = Ok (tt, lot', llab', T', w') /\
  (exists more, lot' = lot ++ more) /\ (last lot' 0 <= last lot 0)%R.
Proof.
  destruct C178_ex_regression as (A & B & _). destruct (jdot_ex_run 1 (1/10) (or_introl eq_refl)) as (lot & llab & T & w & E). destruct (jdot_ex_run 2 0 (or_intror eq_refl)) as (lot' & llab' & T' & w' & E').
  exists lot, llab, T, w, lot', llab', T', w'. split; [exact E|]. split; [exact E'|].
  refine (C214_jdot_regression _ _ _ _ _ _ _ _ _ _ _ _ _ _ _ _ _ _ _ _ _ _ _ _ A B _ _ _ _ _ _ _ _ _ E E'); auto; try lra; try easy.
  split; [reflexivity|]. repeat constructor.
Qed.
