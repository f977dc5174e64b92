(** * C242: the iterative methods end by themselves *)
From Coq Require Import String List ZArith Bool Arith Lia Reals Lra.
From Verif Require Import Np NpFacts RVec RVecFacts LossModel LossSpec LossProofs CallModel CallSpec CallProofs ThmCall ThmKmeans.
From Verif Require Import OTModel OTSpec ThmJdot.
From Verif Require ThmJdot2 ThmLimit.
Import ListNotations.
Local Open Scope nat_scope.
Local Open Scope list_scope.

(** ** Spherical k-means: no assignment of the samples is ever visited twice *)
Fixpoint all_labels (p n : nat) : list (list nat) :=
  match n with 0 => [[]] | S n' => flat_map (fun k => map (cons k) (all_labels p n')) (seq 0 p) end.
Lemma flat_map_const {A B} (f : A -> list B) k l : (forall a, In a l -> length (f a) = k) -> length (flat_map f l) = length l * k.
Proof. induction l as [|a l IH]; intros H; [reflexivity|]. cbn. rewrite app_length, H by (now left). rewrite IH; [lia|intros; apply H; now right]. Qed.
Lemma all_labels_length p n : length (all_labels p n) = p ^ n.
Proof.
  induction n as [|n IH]; [reflexivity|]. cbn [all_labels]. rewrite (flat_map_const _ (p ^ n)); [now rewrite seq_length|]. intros a _. now rewrite map_length.
Qed.
Lemma all_labels_in p : forall n l, length l = n -> (forall x, In x l -> x < p) -> In l (all_labels p n).
Proof.
  induction n as [|n IH]; intros [|a l] L B; try discriminate; [now left|]. cbn [all_labels]. apply in_flat_map. exists a. split; [apply in_seq; specialize (B a (or_introl eq_refl)); lia|].
  apply in_map. apply IH; [now injection L|intros x Hx; apply B; now right].
Qed.
Lemma update_again K d l X cents l' : update K d l X (update K d l' X cents) = update K d l X cents.
Proof. unfold update at 1 3. now rewrite update_length. Qed.
Lemma inertia_cons x X cents l ls : inertia_of (x :: X) cents (l :: ls) = (dissim x (nth l cents []) + inertia_of X cents ls)%R.
Proof. reflexivity. Qed.
Lemma nth_dissim x cents i : i < length cents -> nth i (map (dissim x) cents) 0%R = dissim x (nth i cents []).
Proof. intros H. rewrite (nth_indep _ 0%R (dissim x [])) by now rewrite map_length. apply map_nth. Qed.
(** Equally good labels are not below the ones chosen. *)
Lemma closest_first cents : forall X labels other, mapM (closest cents) X = Ok labels -> length other = length X -> (forall l, In l other -> l < length cents) ->
  inertia_of X cents labels = inertia_of X cents other -> list_sum labels <= list_sum other /\ (list_sum labels = list_sum other -> labels = other).
Proof.
  induction X as [|x X IH]; intros labels other H L B E.
  - injection H as <-. destruct other; [|discriminate]. split; [lia|reflexivity].
  - destruct other as [|o other]; [discriminate|]. cbn [mapM] in H. destruct (closest cents x) as [l|] eqn:C; [|discriminate]. cbn [bind] in H.
    destruct (mapM (closest cents) X) as [ls|] eqn:M; [|discriminate]. cbn [bind] in H. injection H as <-. rewrite !inertia_cons in E.
    destruct (closest_labels _ _ _ M) as (_ & _ & Q). specialize (Q other ltac:(now injection L) ltac:(intros; apply B; now right)).
    unfold closest in C. apply np_argmin_spec in C as (C1 & C2 & C3). rewrite map_length in C1, C2. pose proof (B o (or_introl eq_refl)) as Bo.
    pose proof (C2 o Bo) as C4. rewrite !nth_dissim in C4 by assumption.
    assert (LO : l <= o). { destruct (le_lt_dec l o) as [|G]; [assumption|]. specialize (C3 o G). rewrite !nth_dissim in C3 by assumption. lra. }
    destruct (IH ls other eq_refl ltac:(now injection L) ltac:(intros; apply B; now right) ltac:(lra)) as [I1 I2]. cbn [list_sum fold_right]. fold (list_sum ls) (list_sum other). split; [lia|].
    intros S. f_equal; [lia|apply I2; lia].
Qed.
Lemma close1_refl tol a : (0 <= tol)%R -> close1 tol a a = true.
Proof. intros H. unfold close1. apply Rleb_iff. replace (a - a)%R with 0%R by ring. rewrite Rabs_R0. pose proof (Rabs_pos a). lra. Qed.
Lemma allclose_refl tol A : (0 <= tol)%R -> allclose tol A A = true.
Proof.
  intros H. unfold allclose. apply forallb_forall. intros [u v] P. assert (u = v). { clear H. induction A as [|a A IH]; [contradiction|]. destruct P as [[= <- <-]|P]; auto. } subst v.
  apply forallb_forall. intros [a b] Q. cbn [fst snd] in *. assert (a = b). { clear P H. induction u as [|c u IH]; [contradiction|]. destruct Q as [[= <- <-]|Q]; auto. } subst b. now apply close1_refl.
Qed.
Section HALT.
Context (K d : nat) (tol : R) (X cents : list (list R)) (HX : rect d X) (HU : forall x, In x X -> unit x) (NT : not_tiny d X) (HK : length cents <= K) (HT : (0 <= tol)%R).
Let U l := update K d l X cents.
Let G l := inertia_of X (U l) l.
Let valid l := length l = length X /\ forall x, In x l -> x < length cents.
Let above s l := s = l \/ (G l < G s)%R \/ (G l = G s /\ list_sum l < list_sum s).
Lemma halt_step l l' : valid l -> mapM (closest (U l)) X = Ok l' -> valid l' /\ (l' = l \/ (G l' < G l)%R \/ (G l' = G l /\ list_sum l' < list_sum l)).
Proof.
  intros [L B] H. destruct (closest_labels _ _ _ H) as (L' & B' & M). unfold U in B', M. rewrite update_length in B', M. split; [now split|].
  pose proof (M l L B) as M1. change (inertia_of X (update K d l X cents) l) with (G l) in M1.
  pose proof (update_descent K d l' X (U l) HX HU NT (update_rect K d l X cents HX) ltac:(unfold U; now rewrite update_length) L' ltac:(unfold U; now rewrite update_length)) as D.
  unfold U in D. rewrite update_again in D. change (inertia_of X (update K d l' X cents) l') with (G l') in D.
  destruct (Rlt_dec (G l') (G l)) as [Y|N]; [auto|].
  destruct (closest_first (U l) X l' l H L ltac:(unfold U; rewrite update_length; exact B)) as [S1 S2]; [change (inertia_of X (U l) l) with (G l); unfold U; lra|].
  destruct (Nat.eq_dec (list_sum l') (list_sum l)) as [Q|Q]; [left; now apply S2|]. right. right. split; [lra|lia].
Qed.
Lemma halt_loop : forall fuel n l seen c lab m, 1 <= n -> valid l -> NoDup seen -> (forall s, In s seen -> valid s /\ above s l) ->
  kloop K d tol X fuel n (U l) (Some (l, n - 1)) = Ok (c, Some (lab, m)) -> m + length seen <= n + length cents ^ length X.
Proof.
  induction fuel as [|fuel IH]; intros n l seen c lab m Hn V ND SN H.
  - cbn in H. injection H as <- <- <-. assert (length seen <= length cents ^ length X); [|lia]. rewrite <- all_labels_length. apply NoDup_incl_length; [exact ND|]. intros s Hs. destruct (SN s Hs) as [[L B] _]. now apply all_labels_in.
  - assert (C : length seen <= length cents ^ length X). { rewrite <- all_labels_length. apply NoDup_incl_length; [exact ND|]. intros s Hs. destruct (SN s Hs) as [[L B] _]. now apply all_labels_in. }
    cbn [kloop] in H. destruct (mapM (closest (U l)) X) as [l'|] eqn:E; [|discriminate]. cbn [bind] in H. cbv zeta in H.
    destruct (halt_step l l' V E) as [V' Q]. assert (UU : update K d l' X (U l) = U l') by apply update_again. rewrite UU in H.
    destruct (allclose tol (U l) (U l')) eqn:A; [injection H as <- <- <-; lia|].
    destruct Q as [->|Q]; [rewrite allclose_refl in A by exact HT; discriminate|].
    assert (T : m + length (l' :: seen) <= S n + length cents ^ length X); [|cbn in T; lia].
    apply (IH (S n) l' (l' :: seen) c lab m); [lia|exact V'| | |replace (S n - 1) with n by lia; exact H].
    + constructor; [|exact ND]. intros I. destruct (SN l' I) as [_ [->|[P|P]]]; [destruct Q as [Q|Q]; [lra|lia]|destruct Q as [Q|Q]; lra|destruct Q as [Q|Q]; [lra|lia]].
    + intros s [<-|I]; [split; [exact V'|now left]|]. destruct (SN s I) as [Vs As]. split; [exact Vs|]. unfold above in *. right. destruct As as [->|[P|P]]; [exact Q| |]; destruct Q as [Q|Q]; [left; lra|left; lra|left; lra|right; split; [lra|lia]].
Qed.
Lemma halt_run : forall fuel c lab m, kloop K d tol X fuel 0 cents None = Ok (c, Some (lab, m)) -> m <= length cents ^ length X.
Proof.
  intros [|fuel] c lab m H; [discriminate|]. cbn [kloop] in H. destruct (mapM (closest cents) X) as [l|] eqn:E; [|discriminate]. cbn [bind] in H. cbv zeta in H.
  destruct (allclose tol cents _); [injection H as <- <- <-; lia|]. destruct (closest_labels _ _ _ E) as (L & B & _).
  pose proof (halt_loop fuel 1 l [l] c lab m ltac:(lia) ltac:(now split) ltac:(repeat constructor; intros []) ltac:(intros s [<-|[]]; split; [now split|now left]) H) as Q. cbn in Q. lia.
Qed.
End HALT.

(** From given centres the number of iterations is at most the number of ways to label the samples, plus one, whatever max_iter and the tolerance are. *)
Theorem C242_kmeans_iterations : forall K d max_iter tol X c0 f, rect d X -> Forall far X -> clear_groups d X -> length c0 <= K -> (0 <= tol)%R ->
  kmeans_fit K d max_iter tol X (Some c0) [] = Ok f -> f_n_iter f <= length c0 ^ length X + 1.
Proof.
  intros K d max_iter tol X c0 f HX FX CG HK HT H. unfold kmeans_fit in H.
  destruct (run_single K d max_iter tol (map normalise X) c0) as [[[i c] n]|] eqn:E; [|discriminate]. injection H as <-. cbn [f_n_iter].
  unfold run_single in E. destruct (kloop K d tol _ max_iter _ _ _) as [[cc [[l k]|]]|] eqn:Q; try discriminate. injection E as <- <- <-.
  apply halt_run in Q; [rewrite map_length in Q; lia| | |now apply clear_not_tiny|exact HK|exact HT].
  - intros r Hr. apply in_map_iff in Hr as (x & <- & Hx). unfold normalise. rewrite map_length. now apply HX.
  - intros x Hx. apply in_map_iff in Hx as (y & <- & Hy). apply normalise_unit. rewrite Forall_forall in FX. auto.
Qed.
(** With a larger limit the run ends by itself: every such limit gives the same fit, and its inertia is that of the labels predicted. *)
Theorem C242_kmeans_ends : forall K d tol X c0, rect d X -> Forall far X -> clear_groups d X -> c0 <> [] -> length c0 <= K -> (0 <= tol)%R ->
  exists f labels, kmeans_predict f (map normalise X) = Ok labels /\ f_inertia f = inertia_of (map normalise X) (f_centers f) labels /\
  forall max_iter, length c0 ^ length X + 1 < max_iter -> kmeans_fit K d max_iter tol X (Some c0) [] = Ok f.
Proof.
  intros K d tol X c0 HX FX CG NE HK HT.
  assert (T : forall fuel n cents last, cents <> [] -> exists c p, kloop K d tol (map normalise X) (S fuel) n cents last = Ok (c, Some p)).
  { induction fuel as [|fuel IH]; intros n cents last N; cbn [kloop];
    (destruct (mapM_ok_all (closest cents) (map normalise X)) as [l E]; [intros x _; unfold closest; destruct cents; [congruence|cbn; eauto]|]); rewrite E; cbn [bind]; cbv zeta; (destruct (allclose _ _ _); [eauto|]); [eauto|].
    apply (IH (S n) (update K d l (map normalise X) cents) (Some (l, n))). intros Q. apply (f_equal (@length _)) in Q. rewrite update_length in Q. destruct cents; [congruence|discriminate]. }
  assert (R : exists f, kmeans_fit K d (length c0 ^ length X + 2) tol X (Some c0) [] = Ok f).
  { unfold kmeans_fit, run_single. replace (length c0 ^ length X + 2) with (S (length c0 ^ length X + 1)) by lia. destruct (T (length c0 ^ length X + 1) 0 c0 None NE) as (c & [l m] & E). rewrite E. cbn. eauto. }
  destruct R as [f E]. pose proof (C242_kmeans_iterations _ _ _ _ _ _ _ HX FX CG HK HT E) as L.
  destruct (C107_inertia_converged _ _ _ _ _ _ _ _ E ltac:(lia)) as (labels & P & I). exists f, labels. split; [exact P|]. split; [exact I|].
  intros m Hm. apply (ThmLimit.C235_kmeans _ _ _ _ _ (length c0 ^ length X + 2)); [lia|exact E|lia].
Qed.
Example C242_ex_kmeans : rect 2 [[3; 4]]%R /\ Forall far [[3; 4]]%R /\ clear_groups 2 [[3; 4]]%R /\ exists f,
  forall max_iter, 3 < max_iter -> kmeans_fit 2 2 max_iter 0 [[3; 4]]%R (Some [[0; 2]; [1; 0]]%R) [] = Ok f.
Proof.
  destruct C107_never_worse_ex as (A & B & _ & C & _). repeat (split; [assumption|]).
  destruct (C242_kmeans_ends 2 2 0 [[3; 4]]%R [[0; 2]; [1; 0]]%R A B C ltac:(discriminate) ltac:(cbn; lia) ltac:(lra)) as (f & l & _ & _ & H). exists f. intros m Hm. apply H. cbn. lia.
Qed.

(** ** JDOT: every iteration that goes on gains at least the tolerance *)
(** With every limit from some limit on the result is the same, and it comes without the convergence warning. *)
Definition settles {Est} (run : nat -> res (Est * list R * list R * list (list R) * bool)) : Prop :=
  exists N r, (forall n, N <= n -> run n = r) /\ match r with Ok (_, _, _, _, w) => w = false | Err _ => True end.
Lemma cut_settles {Est} (run : nat -> res (Est * list R * list R * list (list R) * bool)) tol : (0 < tol)%R ->
  (forall n n', 0 < n -> n <= n' -> ThmLimit.only_cut n n' (run n) (run n')) ->
  (forall n est lot llab T, run n = Ok (est, lot, llab, T, true) -> (INR (n - 1) * tol <= nth 0 lot 0)%R) -> settles run.
Proof.
  intros Ht Cut Slow. destruct (run 1) as [[[[[est l] ll] T] [|]]|e] eqn:E1.
  - assert (Hk0 : exists k, (nth 0 l 0 / tol < INR k)%R) by (destruct (archimed (nth 0 l 0 / tol)%R) as [A _]; exists (Z.to_nat (Z.max 0 (up (nth 0 l 0 / tol)%R))); rewrite INR_IZR_INZ, Z2Nat.id by lia; eapply Rlt_le_trans; [exact A|apply IZR_le; lia]).
    destruct Hk0 as [k Hk]. assert (P : 0 < S k) by lia.
    assert (B : (nth 0 l 0 < INR k * tol)%R). { apply (Rmult_lt_reg_r (/ tol)); [now apply Rinv_0_lt_compat|]. rewrite Rmult_assoc, Rinv_r by lra. rewrite Rmult_1_r. exact Hk. }
    destruct (run (S k)) as [[[[[est' l'] ll'] T'] [|]]|e'] eqn:E2.
    + exfalso. pose proof (Cut 1 (S k) ltac:(lia) ltac:(lia)) as C. unfold ThmLimit.only_cut in C. rewrite E1 in C. destruct C as (L & _ & C). destruct (C _ _ _ _ _ E2) as [F _].
      pose proof (Slow _ _ _ _ _ E2) as G. replace (S k - 1) with k in G by lia. destruct l' as [|x l']; [cbn in F; subst l; discriminate|]. cbn in F. subst l. cbn in G, B. lra.
    + exists (S k), (Ok (est', l', ll', T', false)). split; [|reflexivity]. intros n Hn. pose proof (Cut (S k) n P Hn) as C. unfold ThmLimit.only_cut in C. now rewrite E2 in C.
    + exists (S k), (Err e'). split; [|exact I]. intros n Hn. pose proof (Cut (S k) n P Hn) as C. unfold ThmLimit.only_cut in C. now rewrite E2 in C.
  - exists 1, (Ok (est, l, ll, T, false)). split; [|reflexivity]. intros n Hn. pose proof (Cut 1 n ltac:(lia) Hn) as C. unfold ThmLimit.only_cut in C. now rewrite E1 in C.
  - exists 1, (Err e). split; [|exact I]. intros n Hn. pose proof (Cut 1 n ltac:(lia) Hn) as C. unfold ThmLimit.only_cut in C. now rewrite E1 in C.
Qed.
Theorem C242_jdot_regression : forall Est solve (fit : list R -> option (list R) -> res (Est * list R)) H alpha tol dist ys nt ws wt,
  exact_ot solve -> least_squares nt H fit -> (forall f, H f -> length f = nt) -> H (repeat 0%R nt) -> (0 <= alpha <= 1)%R -> (0 < tol)%R ->
  0 < nt -> matrix (length ys) nt dist -> (forall l, ws = Some l -> length l = length ys) ->
  (forall l, wt = Some l -> length l = nt /\ Forall (fun x => 0 < x)%R l) ->
  Forall (Forall (fun x => 0 <= x)%R) dist -> (0 < mean (concat dist))%R ->
  settles (fun n => solve_jdot_regression solve fit alpha tol n dist ys nt ws wt).
Proof.
  intros Est solve fit H alpha tol dist ys nt ws wt Hs Hf HL H0 Ha Ht Hn HM Hws Hwt FD PD. apply (cut_settles _ tol Ht).
  - intros n n' P L. now apply ThmLimit.C235_jdot_regression.
  - intros n est lot llab T E. destruct (C178_regression Est solve fit H alpha tol n dist ys nt ws wt est lot llab T true Hs Hf HL H0 (proj1 Ha) Hn HM Hws Hwt E) as [_ Q]. now apply Q.
Qed.
Theorem C242_jdot_classification : forall Est Xrow solve (fit : list Xrow -> list Z -> list R -> res Est) (pred : Est -> list Xrow -> tgt_pred) metric
    (score : Est -> Xrow -> list R) (H : (Xrow -> list R) -> Prop) h0 alpha tol dist ys Xt ws wt,
  exact_ot solve -> (forall est X, pred_matrix metric (pred est X) = Ok (map (score est) X)) -> (forall h x, H h -> length (h x) = length (unique ys)) ->
  minimises_loss metric ys H score fit -> H h0 -> (forall x c, In c ys -> (class_loss metric ys c (h0 x) <= 10)%R) -> (0 <= alpha <= 1)%R -> (0 < tol)%R ->
  Xt <> [] -> matrix (length ys) (length Xt) dist -> (forall l, ws = Some l -> length l = length ys) -> (forall l, wt = Some l -> length l = length Xt) ->
  Forall (Forall (fun x => 0 <= x)%R) dist -> (0 < mean (concat dist))%R -> (forall h x c, H h -> In c ys -> (0 <= class_loss metric ys c (h x))%R) ->
  settles (fun n => solve_jdot_classification solve fit pred metric alpha 0 tol n dist ys Xt ws wt).
Proof.
  intros Est Xrow solve fit pred metric score H h0 alpha tol dist ys Xt ws wt Hs Hp HL Hf H0 Hb Ha Ht NE HM Hws Hwt FD PD PL. apply (cut_settles _ tol Ht).
  - intros n n' P L. now apply ThmLimit.C235_jdot_classification.
  - intros n est lot llab T E. destruct (C178_classification Est Xrow solve fit pred metric score H h0 alpha tol n dist ys Xt ws wt est lot llab T true Hs Hp HL Hf H0 Hb (proj1 Ha) NE HM Hws Hwt E) as [_ Q]. now apply Q.
Qed.
(** With thr_weights the loss may rise by a little in an iteration; the run ends if the tolerance is larger than that. *)
Theorem C242_jdot_threshold : forall Est Xrow solve (fit : list Xrow -> list Z -> list R -> res Est) (pred : Est -> list Xrow -> tgt_pred) metric
    (score : Est -> Xrow -> list R) (H : (Xrow -> list R) -> Prop) h0 alpha thr B tol dist ys Xt ws,
  exact_ot solve -> (forall est X, pred_matrix metric (pred est X) = Ok (map (score est) X)) -> (forall h x, H h -> length (h x) = length (unique ys)) ->
  minimises_loss metric ys H score fit -> H h0 -> (forall x c, In c ys -> (class_loss metric ys c (h0 x) <= 10)%R) -> (0 <= alpha <= 1)%R ->
  Xt <> [] -> matrix (length ys) (length Xt) dist -> (forall l, ws = Some l -> length l = length ys) ->
  (forall h x c, H h -> In c ys -> (0 <= class_loss metric ys c (h x) <= B)%R) -> (0 <= thr)%R -> (0 < tol)%R -> (alpha * B * INR (length (unique ys)) * thr < tol)%R ->
  Forall (Forall (fun x => 0 <= x)%R) dist -> (0 < mean (concat dist))%R ->
  settles (fun n => solve_jdot_classification solve fit pred metric alpha thr tol n dist ys Xt ws None).
Proof.
  intros Est Xrow solve fit pred metric score H h0 alpha thr B tol dist ys Xt ws Hs Hp HL Hf H0 Hb Ha NE HM Hws HB Hthr Ht Hsmall FD PD. apply (cut_settles _ tol Ht).
  - intros n n' P L. now apply ThmLimit.C235_jdot_classification.
  - intros n est lot llab T E. destruct (ThmJdot2.C178_threshold Est Xrow solve fit pred metric score H h0 alpha thr B tol n dist ys Xt ws est lot llab T true Hs Hp HL Hf H0 Hb (proj1 Ha) NE HM Hws HB Hthr E) as [_ Q]. now apply Q.
Qed.
(** The regression of [C178_ex_regression]. *)
Example C242_ex_jdot : settles (fun n => solve_jdot_regression one_target any_number (1/2) (1/10) n [[1]; [4]]%R [0; 2]%R 1 None None).
Proof.
  destruct C178_ex_regression as (A & B & _). apply (C242_jdot_regression _ one_target any_number (fun f => length f = 1)); auto; try discriminate; try lra.
  - split; [reflexivity|]. repeat constructor.
  - repeat constructor; lra.
  - unfold mean. cbn. lra.
Qed.
