(** * C178: the fixed point iteration of JDOT descends *)
From Coq Require Import List ZArith Bool Arith Lia Reals Lra Psatz Classical_Prop.
From Coq Require ClassicalDedekindReals.
From Verif Require Import Np NpFacts Labels Spec UtilsModel SelectModel RVec RVecFacts OTModel OTSpec OTProofs OTProofs2 OTProofs3 ThmOT MapModel RMat.
Import ListNotations.
Local Open Scope nat_scope.
Local Open Scope list_scope.

(** ** Specification *)
Definition at2 (M : list (list R)) (i j : nat) : R := nth j (nth i M []) 0%R.
(** A transport plan from the masses [a] to the masses [b]. *)
Definition coupling (a b : list R) (T : list (list R)) : Prop :=
  matrix (length a) (length b) T /\ (forall i j, i < length a -> j < length b -> (0 <= at2 T i j)%R) /\
  (forall i, i < length a -> msum (length b) (fun j => at2 T i j) = nth i a 0%R) /\
  (forall j, j < length b -> msum (length a) (fun i => at2 T i j) = nth j b 0%R).
(** What moving the masses by [T] costs. *)
Definition spent (ns nt : nat) (cost : nat -> nat -> R) (T : list (list R)) : R := msum ns (fun i => msum nt (fun j => cost i j * at2 T i j)%R).
(** An exact solver of optimal transport. *)
Definition exact_ot (solve : list (list R) -> list R -> list R -> res (list (list R) * R)) : Prop :=
  forall M a b T v, matrix (length a) (length b) M -> solve M a b = Ok (T, v) ->
    coupling a b T /\ v = spent (length a) (length b) (at2 M) T /\
    forall T', coupling a b T' -> (v <= spent (length a) (length b) (at2 M) T')%R.
Definition descending (l : list R) : Prop := forall i, S i < length l -> (nth (S i) l 0 <= nth i l 0)%R.
Definition fit_weight (nt : nat) (wt : option (list R)) (j : nat) : R := match wt with Some w => nth j w 0%R | None => 1%R end.
(** A least squares estimator: its predictions on the target samples are in [H] and none in [H] is closer to the labels, in the weighted squared distance. *)
Definition least_squares {Est} (nt : nat) (H : list R -> Prop) (fit : list R -> option (list R) -> res (Est * list R)) : Prop :=
  forall yth wt est yp, fit yth wt = Ok (est, yp) -> H yp /\ forall f, H f ->
    (msum nt (fun j => fit_weight nt wt j * Rsqr (nth j yth 0 - nth j yp 0)) <= msum nt (fun j => fit_weight nt wt j * Rsqr (nth j yth 0 - nth j f 0)))%R.

(** ** The loop *)
Section Loop.
  Context {St : Type}.
  Variable step : nat -> St -> res (St * R * R).
  Variable tol : R.
  Variable n : nat.
  Variable P : nat -> St -> option R -> Prop.
  Variable low : Prop.
  Hypothesis Hstep : forall i s prev s' lot llab, P i s prev -> step i s = Ok (s', lot, llab) ->
    P (S i) s' (Some lot) /\ (forall p, prev = Some p -> (lot <= p)%R) /\ (low -> (0 <= lot)%R).
  Lemma loop_down : forall k i s pot plab s' lots llabs w, P i s pot -> i + k = n -> jdot_loop step tol n k i s pot plab = Ok (s', lots, llabs, w) ->
    descending lots /\ (forall p, pot = Some p -> 0 < length lots -> (nth 0 lots 0 <= p)%R) /\ (low -> Forall (fun x => 0 <= x)%R lots) /\
    (low -> w = true -> 0 < k /\ 0 < length lots /\ (forall p, pot = Some p -> (INR k * tol <= p)%R) /\ (pot = None -> (INR (k - 1) * tol <= nth 0 lots 0)%R)).
  Proof.
    induction k as [|k IH]; intros i s pot plab s' lots llabs w HP E H; cbn [jdot_loop] in H.
    - injection H as <- <- <- <-. repeat split; auto; try easy; intros ? L; cbn in L; lia.
    - destruct (step i s) as [[[s1 lot] llab]|] eqn:Es; [|discriminate]. cbn [bind] in H. destruct (Hstep _ _ _ _ _ _ HP Es) as (P1 & D1 & B1).
      assert (Single : lots = [lot] -> w = false -> descending lots /\ (forall p, pot = Some p -> 0 < length lots -> (nth 0 lots 0 <= p)%R) /\ (low -> Forall (fun x => 0 <= x)%R lots) /\
        (low -> w = true -> 0 < S k /\ 0 < length lots /\ (forall p, pot = Some p -> (INR (S k) * tol <= p)%R) /\ (pot = None -> (INR (S k - 1) * tol <= nth 0 lots 0)%R))).
      { intros -> ->. repeat split; try discriminate.
        - intros j L. cbn in L. lia.
        - intros p Ep _. cbn. now apply D1.
        - intros Lo. constructor; auto. }
      destruct (small_change tol lot pot) eqn:S1; [injection H as <- <- <- <-; now apply Single|].
      assert (Dtol : forall p, pot = Some p -> (lot <= p - tol)%R).
      { intros p Ep. specialize (D1 p Ep). subst pot. unfold small_change in S1. apply Rltb_false in S1. rewrite Rabs_left1 in S1 by lra. lra. }
      destruct (small_change tol llab plab); [injection H as <- <- <- <-; now apply Single|].
      destruct (i =? n - 1) eqn:En.
      + injection H as <- <- <- <-. apply Nat.eqb_eq in En. assert (k = 0) by lia. subst k. cbn [length nth]. repeat split.
        * intros j L. cbn in L. lia.
        * intros p Ep _. now apply D1.
        * intros Lo. constructor; auto.
        * lia.
        * lia.
        * intros p Ep. specialize (Dtol p Ep). specialize (B1 H). cbn. lra.
        * intros _. specialize (B1 H). cbn. lra.
      + apply Nat.eqb_neq in En. destruct (jdot_loop step tol n k (S i) s1 (Some lot) (Some llab)) as [[[[s2 a] b] w2]|] eqn:El; [|discriminate].
        cbn [bind] in H. injection H as <- <- <- <-.
        assert (Ek : S i + k = n) by lia. destruct (IH _ _ _ _ _ _ _ _ P1 Ek El) as (I1 & I2 & I3 & I4). repeat split.
        * intros [|j] L; cbn [nth length] in *; [apply (I2 lot eq_refl); lia|apply I1; lia].
        * intros p Ep _. cbn. now apply D1.
        * intros Lo. constructor; auto.
        * lia.
        * cbn. lia.
        * intros p Ep. destruct (I4 H H0) as (_ & _ & Q & _). specialize (Q lot eq_refl). specialize (Dtol p Ep). rewrite S_INR. lra.
        * intros _. destruct (I4 H H0) as (_ & _ & Q & _). specialize (Q lot eq_refl). replace (S k - 1) with k by lia. exact Q.
  Qed.
End Loop.

(** ** Entries of the matrices *)
Lemma map2_nth {A B C} (g : A -> B -> C) da db dc : forall u v i, i < length u -> i < length v -> nth i (map2 g u v) dc = g (nth i u da) (nth i v db).
Proof. induction u as [|x u IH]; intros [|y v] [|i] Hu Hv; cbn in *; try lia; auto. apply IH; lia. Qed.
Lemma map_nth' {A B} (g : A -> B) da db : forall u i, i < length u -> nth i (map g u) db = g (nth i u da).
Proof. induction u as [|x u IH]; intros [|i] Hu; cbn in *; try lia; auto. apply IH; lia. Qed.
Lemma row_len {A} n m (M : list (list A)) i : matrix n m M -> i < n -> length (nth i M []) = m.
Proof. intros [L F] H. rewrite Forall_forall in F. apply F, nth_In. lia. Qed.
Lemma map2_length {A B C} (g : A -> B -> C) : forall u v, length (map2 g u v) = Nat.min (length u) (length v).
Proof. induction u as [|x u IH]; intros [|y v]; cbn; auto. Qed.
Lemma map2_matrix {A B C} (g : A -> B -> C) n m : forall M N, matrix n m M -> matrix n m N -> matrix n m (map2 (map2 g) M N).
Proof.
  intros M N [L F] [L' F']. split; [rewrite map2_length; lia|]. clear n L L'. revert N F'. induction M as [|r M IH]; intros [|q N] F'; try constructor.
  - inversion F; inversion F'; subst. rewrite map2_length. lia.
  - inversion F; inversion F'; subst. now apply IH.
Qed.
Lemma map_matrix {A B} (g : A -> B) n m M : matrix n m M -> matrix n m (map (map g) M).
Proof. intros [L F]. split; [now rewrite map_length|]. rewrite Forall_map. eapply Forall_impl; [|exact F]. intros r Hr. now rewrite map_length. Qed.
Lemma cost_matrix alpha Mf Ml i n m : matrix n m Mf -> matrix n m Ml -> matrix n m (jdot_cost alpha Mf Ml i).
Proof. intros H1 H2. unfold jdot_cost. destruct (0 <? i); [now apply map2_matrix|now apply map_matrix]. Qed.
Lemma cost_at alpha Mf Ml i n m r c : matrix n m Mf -> matrix n m Ml -> r < n -> c < m ->
  at2 (jdot_cost alpha Mf Ml i) r c = ((1 - alpha) * at2 Mf r c + (if 0 <? i then alpha * at2 Ml r c else 0))%R.
Proof.
  intros H1 H2 Hr Hc. pose proof (row_len _ _ _ _ H1 Hr) as L1. pose proof (row_len _ _ _ _ H2 Hr) as L2. destruct H1 as [E1 _], H2 as [E2 _].
  unfold at2, jdot_cost. destruct (0 <? i).
  - rewrite (map2_nth _ [] []) by lia. rewrite (map2_nth _ 0%R 0%R) by lia. reflexivity.
  - rewrite (map_nth' _ []) by lia. rewrite (map_nth' _ 0%R) by lia. ring.
Qed.
Lemma msum_S f : forall k, msum (S k) f = (f 0%nat + msum k (fun i => f (S i)))%R.
Proof. induction k as [|k IH]; [cbn; ring|]. change (msum (S (S k)) f) with (msum (S k) f + f (S k))%R. rewrite IH. cbn. ring. Qed.
Lemma dot_at : forall u v, length u = length v -> dot u v = msum (length u) (fun i => nth i u 0 * nth i v 0)%R.
Proof. induction u as [|x u IH]; intros [|y v] L; try discriminate; [reflexivity|]. cbn [length]. rewrite msum_S. unfold dot in *. cbn [map2 vsum nth]. now rewrite IH by (cbn in L; lia). Qed.
Lemma inner_at n m : forall A B, matrix n m A -> matrix n m B -> inner_mat A B = msum n (fun i => msum m (fun j => at2 A i j * at2 B i j)%R).
Proof.
  unfold matrix. intros A B [L F] [L' F']. subst n. revert B L' F'. induction A as [|r A IH]; intros [|q B] L' F'; try discriminate; [reflexivity|].
  inversion F; inversion F'; subst. cbn [length]. rewrite msum_S. unfold inner_mat in *. cbn [map2 vsum]. rewrite dot_at by lia.
  rewrite (IH ltac:(assumption) B) by (auto; cbn in L'; lia). reflexivity.
Qed.
Lemma sqdist_matrix ys yp : matrix (length ys) (length yp) (sqdist ys yp).
Proof. split; [apply map_length|]. apply Forall_forall. intros r Hr. apply in_map_iff in Hr as (y & <- & _). apply map_length. Qed.
Lemma sqdist_at ys yp i j : i < length ys -> j < length yp -> at2 (sqdist ys yp) i j = (Rsqr (nth i ys 0 - nth j yp 0))%R.
Proof. intros Hi Hj. unfold at2, sqdist. rewrite (map_nth' _ 0%R) by auto. rewrite (map_nth' _ 0%R) by auto. reflexivity. Qed.
Lemma spent_ext ns nt c c' T : (forall i j, i < ns -> j < nt -> c i j = c' i j) -> spent ns nt c T = spent ns nt c' T.
Proof. intros H. unfold spent. apply msum_ext. intros i Hi. apply msum_ext. intros j Hj. now rewrite H. Qed.
Lemma spent_split ns nt al c d T : spent ns nt (fun i j => c i j + al * d i j)%R T = (spent ns nt c T + al * spent ns nt d T)%R.
Proof.
  unfold spent. rewrite <- msum_scal, <- msum_plus. apply msum_ext. intros i _. rewrite <- msum_scal, <- msum_plus. apply msum_ext. intros j _. ring.
Qed.
Lemma spent_nonneg a b c T : coupling a b T -> (forall i j, i < length a -> j < length b -> (0 <= c i j)%R) -> (0 <= spent (length a) (length b) c T)%R.
Proof. intros (_ & N & _) H. unfold spent. apply msum_nonneg. intros i Hi. apply msum_nonneg. intros j Hj. apply Rmult_le_pos; auto. Qed.
Lemma msum_le k f g : (forall i, i < k -> (f i <= g i)%R) -> (msum k f <= msum k g)%R.
Proof. intros H. induction k; cbn; [lra|]. specialize (IHk ltac:(intros; apply H; lia)). pose proof (H k ltac:(lia)). lra. Qed.

(** ** Regression *)
(** The squared distance to the transported labels differs from the label cost of the plan by a constant. *)
Lemma barycentre a b T (ys : list R) yth f : coupling a b T -> length ys = length a -> (forall j, j < length b -> (0 < nth j b 0)%R) ->
  (forall j, j < length b -> (nth j yth 0 = msum (length a) (fun i => nth i ys 0 * at2 T i j) / nth j b 0)%R) ->
  spent (length a) (length b) (fun i j => Rsqr (nth i ys 0 - nth j f 0)%R) T =
  (msum (length b) (fun j => nth j b 0 * Rsqr (nth j yth 0 - nth j f 0)) +
   (spent (length a) (length b) (fun i j => Rsqr (nth i ys 0)) T - msum (length b) (fun j => nth j b 0 * Rsqr (nth j yth 0))))%R.
Proof.
  intros (_ & _ & _ & C) Ly Pb Hy. unfold spent. rewrite !(msum_swap (length a) (length b)).
  match goal with |- ?A = (?B + (?C' - ?D))%R => cut (A + D = B + C')%R; [lra|] end. rewrite <- !msum_plus. apply msum_ext. intros j Hj.
  specialize (Hy j Hj). specialize (C j Hj). specialize (Pb j Hj).
  assert (E : msum (length a) (fun i => nth i ys 0 * at2 T i j)%R = (nth j yth 0 * nth j b 0)%R) by (rewrite Hy; field; lra).
  rewrite (msum_ext (length a) (fun i => Rsqr (nth i ys 0 - nth j f 0) * at2 T i j)%R
    (fun i => Rsqr (nth i ys 0) * at2 T i j + ((-2 * nth j f 0) * (nth i ys 0 * at2 T i j) + Rsqr (nth j f 0) * at2 T i j))%R) by (intros i _; unfold Rsqr; ring).
  rewrite !msum_plus, !msum_scal, E, C. unfold Rsqr. ring.
Qed.

Section Regression.
  Context {Est : Type}.
  Variable solve : list (list R) -> list R -> list R -> res (list (list R) * R).
  Variable fit : list R -> option (list R) -> res (Est * list R).
  Variable H : list R -> Prop.
  Variable alpha : R.
  Variable Mf : list (list R).
  Variable ys a b : list R.
  Variable wt : option (list R).
  Variable c : R.
  Hypothesis Hsolve : exact_ot solve.
  Hypothesis Hfit : least_squares (length b) H fit.
  Hypothesis Hlen : forall f, H f -> length f = length b.
  Hypothesis Ha : (0 <= alpha)%R.
  Hypothesis HM : matrix (length a) (length b) Mf.
  Hypothesis Hys : length ys = length a.
  Hypothesis Hb : (forall j, j < length b -> (0 < nth j b 0)%R).
  (** The masses of the targets are proportional to the weights given to the estimator. *)
  Hypothesis Hc : (0 < c)%R.
  Hypothesis Hw : forall j, j < length b -> nth j b 0%R = (c * fit_weight (length b) wt j)%R.
  Definition joint (f : list R) (i j : nat) : R := ((1 - alpha) * at2 Mf i j + alpha * Rsqr (nth i ys 0 - nth j f 0))%R.
  Definition P_reg (i : nat) (s : list (list R) * option (Est * list (list R))) (prev : option R) : Prop :=
    exists f, H f /\ fst s = sqdist ys f /\
      match i with 0 => prev = None | S _ => exists p T, prev = Some p /\ coupling a b T /\ (spent (length a) (length b) (joint f) T <= p)%R end.
  Lemma step_reg i s prev s' lot llab : P_reg i s prev -> reg_step solve fit alpha Mf ys a b wt i s = Ok (s', lot, llab) ->
    P_reg (S i) s' (Some lot) /\ (forall p, prev = Some p -> (lot <= p)%R) /\
    ((alpha <= 1)%R /\ (forall i j, i < length a -> j < length b -> (0 <= at2 Mf i j)%R) -> (0 <= lot)%R).
  Proof.
    intros (f & Hf & Es & HP) Hs. unfold reg_step in Hs. apply bind_ok in Hs as [[T v] [Hsol Hs]]. rewrite Es in Hsol, Hs.
    assert (Lf : length f = length b) by now apply Hlen.
    assert (Mq : matrix (length a) (length b) (sqdist ys f)) by (rewrite <- Hys, <- Lf; apply sqdist_matrix).
    apply bind_ok in Hs as [[est yp] [Hft Hs]]. apply bind_ok in Hs as [d [_ Hs]]. injection Hs as <- <- _.
    apply Hsolve in Hsol as (CT & Ev & Opt); [|now apply cost_matrix].
    apply Hfit in Hft as [Hyp Best]. assert (Lyp : length yp = length b) by now apply Hlen.
    assert (HTm : length T = length ys) by (destruct CT as ((L & _) & _); congruence).
    assert (Yth : forall j, j < length b -> (nth j (transported ys T b) 0 = msum (length a) (fun i => nth i ys 0 * at2 T i j) / nth j b 0)%R).
    { intros j Hj. unfold transported. rewrite combine_seq_nth, map_map. rewrite (map_nth' _ 0) by (now rewrite seq_length).
      rewrite seq_nth by auto. cbn [fst snd]. replace (0 + j - 0) with j by lia. cbn [plus]. f_equal. rewrite dot_at by (unfold col; rewrite map_length; congruence).
      rewrite Hys. apply msum_ext. intros i0 Hi0. f_equal. unfold col, at2. now rewrite (map_nth' _ []) by lia. }
    (** the value reported is the joint cost of the plan and of the predictions used to compute it *)
    assert (Elot : (if i =? 0 then (v + alpha * inner_mat (sqdist ys f) T)%R else v) = spent (length a) (length b) (joint f) T).
    { assert (Q : spent (length a) (length b) (at2 (sqdist ys f)) T = spent (length a) (length b) (fun i j => Rsqr (nth i ys 0 - nth j f 0)%R) T).
      { apply spent_ext. intros i0 j0 Hi0 Hj0. apply sqdist_at; lia. }
      destruct i as [|i]; cbn [Nat.eqb].
      - rewrite (inner_at (length a) (length b)) by (auto; apply CT). change (msum _ _) with (spent (length a) (length b) (at2 (sqdist ys f)) T).
        rewrite Q, Ev. unfold joint. rewrite (spent_split _ _ alpha). f_equal. apply spent_ext. intros i0 j0 Hi0 Hj0.
        rewrite (cost_at _ _ _ _ (length a) (length b)) by auto. cbn [Nat.ltb Nat.leb]. ring.
      - rewrite Ev. apply spent_ext. intros i0 j0 Hi0 Hj0. rewrite (cost_at _ _ _ _ (length a) (length b)) by auto. cbn [Nat.ltb Nat.leb].
        unfold joint. now rewrite sqdist_at by lia. }
    rewrite Elot.
    split; [|split].
    - exists yp. split; [exact Hyp|]. split; [reflexivity|]. exists (spent (length a) (length b) (joint f) T), T. split; [reflexivity|]. split; [exact CT|].
      unfold joint. rewrite !spent_split. apply Rplus_le_compat_l, Rmult_le_compat_l; [exact Ha|].
      rewrite (barycentre a b T ys (transported ys T b) yp CT Hys Hb Yth), (barycentre a b T ys (transported ys T b) f CT Hys Hb Yth).
      apply Rplus_le_compat_r. specialize (Best f Hf).
      rewrite (msum_ext (length b) (fun j => nth j b 0 * Rsqr (nth j (transported ys T b) 0 - nth j yp 0))%R (fun j => c * (fit_weight (length b) wt j * Rsqr (nth j (transported ys T b) 0 - nth j yp 0)))%R) by (intros j Hj; rewrite (Hw j Hj); ring).
      rewrite (msum_ext (length b) (fun j => nth j b 0 * Rsqr (nth j (transported ys T b) 0 - nth j f 0))%R (fun j => c * (fit_weight (length b) wt j * Rsqr (nth j (transported ys T b) 0 - nth j f 0)))%R) by (intros j Hj; rewrite (Hw j Hj); ring).
      rewrite !msum_scal. apply Rmult_le_compat_l; lra.
    - intros p Ep. destruct i as [|i]; [congruence|]. destruct HP as (p' & T' & Ep' & CT' & B). assert (p' = p) by congruence. subst p'.
      cbn [Nat.eqb] in Elot. rewrite <- Elot. eapply Rle_trans; [apply (Opt T' CT')|]. eapply Rle_trans; [|exact B]. apply Req_le, spent_ext. intros i0 j0 Hi0 Hj0.
      rewrite (cost_at _ _ _ _ (length a) (length b)) by auto. cbn [Nat.ltb Nat.leb]. unfold joint. now rewrite sqdist_at by lia.
    - intros [A1 N]. apply spent_nonneg; [exact CT|]. intros i0 j0 Hi0 Hj0. unfold joint. apply Rplus_le_le_0_compat; apply Rmult_le_pos; auto; [lra|apply Rle_0_sqr].
  Qed.
End Regression.

Lemma marginal_len n w : (forall l, w = Some l -> length l = n) -> length (marginal n w) = n.
Proof. intros H. destruct w as [l|]; cbn; [rewrite map_length; now apply H|apply repeat_length]. Qed.
Lemma vsum_pos : forall l, l <> [] -> Forall (fun x => 0 < x)%R l -> (0 < vsum l)%R.
Proof.
  induction l as [|x [|y l] IH]; intros N F; [easy| |]; inversion F as [|? ? F1 F2]; subst; cbn [vsum]; [lra|].
  specialize (IH ltac:(discriminate) F2). cbn [vsum] in IH. lra.
Qed.
Lemma marginal_fit nt wt : 0 < nt -> (forall l, wt = Some l -> length l = nt /\ Forall (fun x => 0 < x)%R l) ->
  exists c, (0 < c)%R /\ (forall j, j < nt -> nth j (marginal nt wt) 0%R = (c * fit_weight nt wt j)%R /\ (0 < nth j (marginal nt wt) 0)%R).
Proof.
  intros Hn Hw. assert (0 < INR nt)%R by (apply lt_0_INR; lia). destruct wt as [l|].
  - destruct (Hw l eq_refl) as [Ll Fl]. assert (S : (0 < vsum l)%R) by (apply vsum_pos; auto; destruct l; [cbn in Ll; lia|easy]).
    exists (/ vsum l)%R. split; [now apply Rinv_0_lt_compat|]. intros j Hj. cbn [marginal fit_weight]. rewrite (map_nth' _ 0%R) by lia.
    assert (0 < nth j l 0)%R by (rewrite Forall_forall in Fl; apply Fl, nth_In; lia). split; [field; lra|]. apply Rdiv_lt_0_compat; auto.
  - exists (/ INR nt)%R. split; [now apply Rinv_0_lt_compat|]. intros j Hj. cbn [marginal fit_weight].
    assert (E : nth j (repeat (1 / INR nt)%R nt) 0%R = (1 / INR nt)%R).
    { apply (repeat_spec nt (1 / INR nt)%R). apply nth_In. now rewrite repeat_length. }
    rewrite E. split; [field; lra|]. apply Rdiv_lt_0_compat; lra.
Qed.
Lemma norm_matrix n m D : matrix n m D -> matrix n m (norm_mean D).
Proof. apply map_matrix. Qed.
Lemma norm_pos n m D i j : matrix n m D -> Forall (Forall (fun x => 0 <= x)%R) D -> (0 < mean (concat D))%R -> i < n -> j < m -> (0 <= at2 (norm_mean D) i j)%R.
Proof.
  intros HM F P Hi Hj. pose proof (row_len _ _ _ _ HM Hi) as L. destruct HM as [L0 _]. unfold norm_mean, at2. rewrite (map_nth' _ []) by lia.
  rewrite (map_nth' _ 0%R) by lia. apply Rmult_le_pos; [|apply Rlt_le, Rinv_0_lt_compat; exact P].
  rewrite Forall_forall in F. assert (G : Forall (fun x => 0 <= x)%R (nth i D [])) by (apply F, nth_In; lia). rewrite Forall_forall in G. apply G, nth_In. lia.
Qed.

Theorem C178_regression : forall Est solve (fit : list R -> option (list R) -> res (Est * list R)) H alpha tol n dist ys nt ws wt est lot llab T w,
  exact_ot solve -> least_squares nt H fit -> (forall f, H f -> length f = nt) -> H (repeat 0%R nt) -> (0 <= alpha)%R ->
  0 < nt -> matrix (length ys) nt dist -> (forall l, ws = Some l -> length l = length ys) ->
  (forall l, wt = Some l -> length l = nt /\ Forall (fun x => 0 < x)%R l) ->
  solve_jdot_regression solve fit alpha tol n dist ys nt ws wt = Ok (est, lot, llab, T, w) ->
  descending lot /\
  ((alpha <= 1)%R -> Forall (Forall (fun x => 0 <= x)%R) dist -> (0 < mean (concat dist))%R ->
   Forall (fun x => 0 <= x)%R lot /\ (w = true -> (INR (n - 1) * tol <= nth 0 lot 0)%R)).
Proof.
  intros Est solve fit H alpha tol n dist ys nt ws wt est lot llab T w Hs Hf HL H0 Ha Hn HM Hws Hwt E.
  unfold solve_jdot_regression in E. apply bind_ok in E as [[[[s lo] ll] wa] [El E]]. cbn in E.
  destruct (snd s) as [[e T0]|]; [|discriminate]. injection E as <- <- <- <- <-.
  set (a := marginal (length ys) ws) in *. set (b := marginal nt wt) in *.
  assert (La : length a = length ys) by now apply marginal_len.
  assert (Lb : length b = nt) by (apply marginal_len; intros l Hl; now apply Hwt).
  destruct (marginal_fit nt wt Hn Hwt) as (c & Hc & Hb). fold b in Hb.
  pose proof (fun i s prev s' l1 l2 => step_reg solve fit H alpha (norm_mean dist) ys a b wt c Hs
     ltac:(rewrite Lb; exact Hf) ltac:(rewrite Lb; exact HL) Ha ltac:(rewrite La, Lb; now apply norm_matrix) (eq_sym La)
     ltac:(rewrite Lb; intros j Hj; now apply Hb) Hc ltac:(rewrite Lb; intros j Hj; now apply Hb) i s prev s' l1 l2) as Step.
  assert (Init : P_reg H alpha (norm_mean dist) ys a b 0 (sqdist ys (repeat 0%R nt), @None (Est * list (list R))) None) by (exists (repeat 0%R nt); repeat split; auto).
  destruct (loop_down _ tol n _ _ Step n 0 _ None None _ _ _ _ Init eq_refl El) as (D1 & _ & D3 & D4).
  split; [exact D1|]. intros A1 Fd Pd.
  assert (Low : (alpha <= 1)%R /\ (forall i j, i < length a -> j < length b -> (0 <= at2 (norm_mean dist) i j)%R)).
  { split; [exact A1|]. intros i j Hi Hj. apply (norm_pos (length ys) nt); auto; lia. }
  split; [now apply D3|]. intros Hw. destruct (D4 Low Hw) as (_ & _ & _ & Q). now apply Q.
Qed.

(** ** Classification *)
Fixpoint position (c : Z) (l : list Z) : nat := match l with [] => 0 | x :: l' => if (x =? c)%Z then 0 else S (position c l') end.
(** The loss of the scores [f] (one per class of [ys], in increasing order) for the class [c]. *)
Definition class_loss (metric : jmetric) (ys : list Z) (c : Z) (f : list R) : R :=
  match metric with MHinge => hinge_cost (position c (unique ys)) f | _ => (- nth (position c (unique ys)) f 0)%R end.
Definition weighted_loss {Xrow} metric ys (Xh : list Xrow) yh wh (h : Xrow -> list R) : R :=
  vsum (map2 (fun xc w => w * class_loss metric ys (snd xc) (h (fst xc)))%R (combine Xh yh) wh).
(** A classifier that minimises the weighted loss of the metric over the scoring functions [H]. *)
Definition minimises_loss {Est Xrow} metric ys (H : (Xrow -> list R) -> Prop) (score : Est -> Xrow -> list R)
           (fit : list Xrow -> list Z -> list R -> res Est) : Prop :=
  forall Xh yh wh est, fit Xh yh wh = Ok est -> H (score est) /\
    forall h, H h -> (weighted_loss metric ys Xh yh wh (score est) <= weighted_loss metric ys Xh yh wh h)%R.

Lemma position_spec c : forall l, In c l -> nth_error l (position c l) = Some c.
Proof. induction l as [|x l IH]; [easy|]. intros [->|I]; cbn; [now rewrite Z.eqb_refl|]. destruct (x =? c)%Z eqn:E; [apply Z.eqb_eq in E; now subst|]. now apply IH. Qed.
Lemma row_loss_class metric ys c f : In c ys -> length f = length (unique ys) -> row_loss metric (onehot (unique ys) c) f = class_loss metric ys c f.
Proof.
  intros I L. assert (E : nth_error (unique ys) (position c (unique ys)) = Some c) by (apply position_spec; now apply unique_In).
  unfold class_loss. destruct metric; [|now apply hinge_row; [apply unique_NoDup|exact E|exact L]|]; unfold row_loss; f_equal; apply onehot_dot; auto; apply unique_NoDup.
Qed.
Lemma vsum_app l : forall l', vsum (l ++ l') = (vsum l + vsum l')%R.
Proof. induction l as [|x l IH]; intros l'; cbn [app vsum]; [lra|]. rewrite IH. lra. Qed.
Lemma row_sum {L} (dl : L) (g : L -> R) : forall labels row, length row = length labels ->
  vsum (map (fun lw => snd lw * g (fst lw))%R (combine labels row)) = msum (length labels) (fun k => nth k row 0 * g (nth k labels dl))%R.
Proof.
  induction labels as [|c labels IH]; intros [|w row] E; try discriminate; [reflexivity|]. cbn [length combine map vsum fst snd]. rewrite msum_S. cbn [nth].
  now rewrite IH by (cbn in E; lia).
Qed.
Lemma triples_sum {Xrow} (G : Z -> list R -> R) (h : Xrow -> list R) labels : forall Xt Yth, matrix (length Xt) (length labels) Yth ->
  vsum (map (fun t => snd t * G (snd (fst t)) (h (fst (fst t))))%R (all_triples Xt Yth labels)) =
  msum (length Xt) (fun j => msum (length labels) (fun k => at2 Yth j k * G (nth k labels 0%Z) (nth j (map h Xt) [])))%R.
Proof.
  induction Xt as [|x Xt IH]; intros [|row Yth] [L F]; try discriminate; [reflexivity|]. inversion F as [|? ? F1 F2]; subst.
  cbn [length]. rewrite msum_S. unfold all_triples in *. cbn [combine flat_map]. rewrite map_app, vsum_app. f_equal.
  - rewrite map_map. cbn [fst snd]. apply (row_sum 0%Z (fun c => G c (h x))). exact F1.
  - rewrite IH; [reflexivity|]. split; [cbn in L; lia|exact F2].
Qed.
Lemma map2_combine_map {X L} (g : X * L -> R -> R) (kept : list (X * L * R)) :
  map2 g (combine (map (fun t => fst (fst t)) kept) (map (fun t => snd (fst t)) kept)) (map snd kept) = map (fun t => g (fst t) (snd t)) kept.
Proof. induction kept as [|[[x l] w] kept IH]; [reflexivity|]. cbn [map combine map2 fst snd]. now rewrite IH. Qed.
Lemma filter_sum {A} (p : A -> bool) (g : A -> R) : forall l, (forall x, In x l -> p x = false -> g x = 0%R) -> vsum (map g (filter p l)) = vsum (map g l).
Proof.
  induction l as [|x l IH]; intros H; [reflexivity|]. cbn [filter]. assert (E : vsum (map g (filter p l)) = vsum (map g l)) by (apply IH; intros; apply H; auto; now right).
  destruct (p x) eqn:Ep; cbn [map vsum]; rewrite E; [reflexivity|]. rewrite (H x) by (auto; now left). ring.
Qed.

Lemma repeat_nth_in {A} (x d : A) n i : i < n -> nth i (repeat x n) d = x.
Proof. intros H. apply (repeat_spec n x). apply nth_In. now rewrite repeat_length. Qed.
Lemma pick_class (u : list Z) (G : Z -> R) y : NoDup u -> In y u -> msum (length u) (fun k => (if (y =? nth k u 0)%Z then 1 else 0) * G (nth k u 0%Z))%R = G y.
Proof.
  intros ND I. apply (In_nth _ _ 0%Z) in I as (r & Hr & Er). rewrite (msum_ext (length u) _ (fun k => G (nth k u 0%Z) * (if k =? r then 1 else 0))%R).
  - rewrite msum_delta by exact Hr. now rewrite Er.
  - intros k Hk. destruct (Nat.eqb_spec k r) as [->|N]; [rewrite Er, Z.eqb_refl; ring|].
    destruct (y =? nth k u 0)%Z eqn:E; [|ring]. apply Z.eqb_eq in E. exfalso. apply N. apply (proj1 (NoDup_nth u 0%Z) ND k r Hk Hr). congruence.
Qed.

Section Classification.
  Context {Est Xrow : Type}.
  Variable solve : list (list R) -> list R -> list R -> res (list (list R) * R).
  Variable fit : list Xrow -> list Z -> list R -> res Est.
  Variable pred : Est -> list Xrow -> tgt_pred.
  Variable metric : jmetric.
  Variable score : Est -> Xrow -> list R.
  Variable H : (Xrow -> list R) -> Prop.
  Variable h0 : Xrow -> list R.
  Variable alpha : R.
  Variable Mf : list (list R).
  Variable ys : list Z.
  Variable Xt : list Xrow.
  Variable a b : list R.
  Hypothesis Hsolve : exact_ot solve.
  Hypothesis Hpred : forall est X, pred_matrix metric (pred est X) = Ok (map (score est) X).
  Hypothesis Hlen : forall h x, H h -> length (h x) = length (unique ys).
  Hypothesis Hfit : minimises_loss metric ys H score fit.
  Hypothesis Hh0 : H h0.
  Hypothesis Hten : forall x c, In c ys -> (class_loss metric ys c (h0 x) <= 10)%R.
  Hypothesis Ha : (0 <= alpha)%R.
  Hypothesis Hxt : Xt <> [].
  Hypothesis HM : matrix (length a) (length b) Mf.
  Hypothesis Hys : length ys = length a.
  Hypothesis Hb : length Xt = length b.
  Definition label_loss (h : Xrow -> list R) (i j : nat) : R := class_loss metric ys (nth i ys 0%Z) (nth j (map h Xt) []).
  Definition total (C : nat -> nat -> R) (i j : nat) : R := ((1 - alpha) * at2 Mf i j + alpha * C i j)%R.

  (** The loss that the classifier minimises is, up to the number of targets, the label cost of the plan. *)
  Lemma plan_loss T h Xh yh wh : coupling a b T -> H h ->
    jdot_data Xt (label_plan T (map (onehot (unique ys)) ys) (length Xt) (length (unique ys))) (unique ys) 0 = Ok (Xh, yh, wh) ->
    weighted_loss metric ys Xh yh wh h = (INR (length Xt) * spent (length a) (length b) (label_loss h) T)%R.
  Proof.
    intros CT Hh E. assert (LT : length T = length ys) by (destruct CT as ((L & _) & _); congruence).
    set (W := label_plan T (map (onehot (unique ys)) ys) (length Xt) (length (unique ys))) in *.
    destruct (C92_class_weights T ys (length Xt) LT) as [MW _]. fold W in MW.
    assert (EW : forall j k, j < length Xt -> k < length (unique ys) ->
       at2 W j k = (INR (length Xt) * msum (length a) (fun i => at2 T i j * (if (nth i ys 0 =? nth k (unique ys) 0)%Z then 1 else 0)))%R).
    { intros j k Hj Hk. unfold at2 at 1, W, label_plan. rewrite !nth_map_seq by auto. rewrite Rmult_comm. f_equal.
      rewrite dot_at by (unfold col; rewrite !map_length; congruence). unfold col at 1. rewrite map_length. replace (length T) with (length a) by congruence.
      apply msum_ext. intros i Hi. unfold col. rewrite (map_nth' _ []) by lia. rewrite (map_nth' _ []) by (rewrite map_length; lia).
      rewrite (map_nth' _ 0%Z) by lia. unfold onehot. now rewrite (map_nth' _ 0%Z) by auto. }
    assert (PW : forall j k, j < length Xt -> k < length (unique ys) -> (0 <= at2 W j k)%R).
    { intros j k Hj Hk. rewrite EW by auto. apply Rmult_le_pos; [apply pos_INR|]. apply msum_nonneg. intros i Hi.
      assert (0 <= at2 T i j)%R by (apply CT; auto; lia). destruct (_ =? _)%Z; lra. }
    assert (exists m, is_max m (concat W)) as [m Hm].
    { unfold jdot_data in E. apply bind_ok in E as [m [Em _]]. exists m. now apply np_max_ok. }
    rewrite (jdot_data_ok _ _ _ _ m Hxt MW Hm) in E. cbv zeta in E. injection E as <- <- <-.
    unfold weighted_loss. rewrite map2_combine_map. rewrite filter_sum.
    2:{ intros [[x c] w] I Hw. cbn [fst snd] in *. apply C55_triples in I as (j & k & row & Ix & Ic & Ir & Iw); [|exact MW].
        apply Rltb_false in Hw. assert (Ew : w = at2 W j k) by (unfold at2; rewrite (nth_error_nth _ _ _ Ir); now rewrite (nth_error_nth _ _ _ Iw)).
        assert (j < length Xt) by (apply nth_error_Some; congruence). assert (k < length (unique ys)) by (apply nth_error_Some; congruence).
        pose proof (PW j k ltac:(auto) ltac:(auto)). replace w with 0%R by lra. ring. }
    rewrite (triples_sum (class_loss metric ys) h (unique ys) Xt W MW).
    unfold spent. rewrite (msum_swap (length a) (length b)), <- Hb. rewrite <- msum_scal. apply msum_ext. intros j Hj.
    rewrite (msum_ext (length (unique ys)) _ (fun k => INR (length Xt) * msum (length a) (fun i => at2 T i j * ((if (nth i ys 0 =? nth k (unique ys) 0)%Z then 1 else 0) * class_loss metric ys (nth k (unique ys) 0%Z) (nth j (map h Xt) []))))%R).
    2:{ intros k Hk. rewrite EW by auto. rewrite Rmult_assoc. f_equal. rewrite <- msum_scal_r. apply msum_ext. intros i _. ring. }
    rewrite msum_scal. f_equal. rewrite msum_swap. apply msum_ext. intros i Hi. rewrite msum_scal, Rmult_comm. f_equal.
    unfold label_loss. apply (pick_class (unique ys) (fun c => class_loss metric ys c (nth j (map h Xt) []))); [apply unique_NoDup|].
    apply unique_In, nth_In. lia.
  Qed.

  Definition P_cls (i : nat) (s : list (list R) * option (Est * list (list R))) (prev : option R) : Prop :=
    match i with
    | 0 => prev = None /\ fst s = initial_cost (length ys) (length Xt)
    | S _ => exists h p T, H h /\ matrix (length a) (length b) (fst s) /\ (forall i j, i < length a -> j < length b -> at2 (fst s) i j = label_loss h i j) /\
               prev = Some p /\ coupling a b T /\ (spent (length a) (length b) (total (label_loss h)) T <= p)%R
    end.
  Lemma initial_matrix : matrix (length a) (length b) (initial_cost (length ys) (length Xt)).
  Proof.
    unfold initial_cost. split; [rewrite repeat_length; congruence|]. apply Forall_forall. intros r Hr. apply repeat_spec in Hr. subst r. now rewrite repeat_length.
  Qed.
  Lemma initial_at i j : i < length a -> j < length b -> at2 (initial_cost (length ys) (length Xt)) i j = 10%R.
  Proof.
    intros Hi Hj. unfold at2, initial_cost. rewrite (repeat_nth_in (repeat 10%R (length Xt))) by lia. apply repeat_nth_in. lia.
  Qed.
  Lemma step_cls i s prev s' lot llab : P_cls i s prev -> cls_step solve fit pred metric alpha 0 Mf ys Xt a b i s = Ok (s', lot, llab) ->
    P_cls (S i) s' (Some lot) /\ (forall p, prev = Some p -> (lot <= p)%R) /\
    (((alpha <= 1)%R /\ (forall i j, i < length a -> j < length b -> (0 <= at2 Mf i j)%R)) /\ (forall h x c, H h -> In c ys -> (0 <= class_loss metric ys c (h x))%R) -> (0 <= lot)%R).
  Proof.
    intros HP Hs. unfold cls_step in Hs. apply bind_ok in Hs as [[T v] [Hsol Hs]]. apply bind_ok in Hs as [[[Xh yh] wh] [Hd Hs]].
    apply bind_ok in Hs as [est [Hft Hs]]. apply bind_ok in Hs as [Ml' [Hcc Hs]]. apply bind_ok in Hs as [l [_ Hs]]. injection Hs as <- <- _.
    (** the label cost used by the plan, and a scoring function that is not worse *)
    assert (G : matrix (length a) (length b) (fst s) /\ exists h, H h /\ (forall i j, i < length a -> j < length b -> (label_loss h i j <= at2 (fst s) i j)%R) /\
      ((forall h x c, H h -> In c ys -> (0 <= class_loss metric ys c (h x))%R) -> forall i j, i < length a -> j < length b -> (0 <= at2 (fst s) i j)%R)).
    { destruct i as [|i].
      - destruct HP as [_ E]. rewrite E. split; [apply initial_matrix|]. exists h0. split; [exact Hh0|]. split.
        + intros i j Hi Hj. rewrite initial_at by auto. destruct Xt as [|x0 X0] eqn:EX; [easy|]. rewrite <- EX in *. unfold label_loss.
          rewrite (map_nth' _ x0) by lia. apply Hten, nth_In. lia.
        + intros _ i j Hi Hj. rewrite initial_at by auto. lra.
      - destruct HP as (h & p & T' & Hh & Ms & Eq & _). split; [exact Ms|]. exists h. split; [exact Hh|]. split.
        + intros i0 j Hi Hj. rewrite Eq by auto. lra.
        + intros Pos i0 j Hi Hj. rewrite Eq by auto. destruct Xt as [|x0 X0] eqn:EX; [easy|]. rewrite <- EX in *. unfold label_loss.
          rewrite (map_nth' _ x0) by lia. apply Pos; [exact Hh|]. apply nth_In. lia. }
    destruct G as (Ms & h & Hh & Better & Pos0).
    apply Hsolve in Hsol as (CT & Ev & Opt); [|now apply cost_matrix].
    assert (Elot : (if i =? 0 then (v + alpha * inner_mat (fst s) T)%R else v) = spent (length a) (length b) (total (at2 (fst s))) T).
    { unfold total. destruct i as [|i]; cbn [Nat.eqb].
      - rewrite (inner_at (length a) (length b)) by (auto; apply CT). change (msum _ _) with (spent (length a) (length b) (at2 (fst s)) T).
        rewrite Ev, (spent_split _ _ alpha). f_equal. apply spent_ext. intros i0 j0 Hi0 Hj0. rewrite (cost_at _ _ _ _ (length a) (length b)) by auto. cbn [Nat.ltb Nat.leb]. ring.
      - rewrite Ev. apply spent_ext. intros i0 j0 Hi0 Hj0. rewrite (cost_at _ _ _ _ (length a) (length b)) by auto. reflexivity. }
    rewrite Elot. apply Hfit in Hft as [He Best]. split; [|split].
    - exists (score est), (spent (length a) (length b) (total (at2 (fst s))) T), T. cbn [fst].
      assert (FP : Forall (fun f => length f = length (unique ys)) (map (score est) Xt)) by (apply Forall_map, Forall_forall; intros x _; now apply Hlen).
      rewrite (class_cost_entry metric ys _ _ (Hpred est Xt) FP) in Hcc. injection Hcc as <-.
      split; [exact He|]. split; [|split; [|split; [reflexivity|split; [exact CT|]]]].
      + split; [rewrite map_length; congruence|]. apply Forall_map, Forall_forall. intros y _. now rewrite !map_length.
      + intros i0 j Hi Hj. unfold at2, label_loss. rewrite (map_nth' _ 0%Z) by lia. rewrite (map_nth' _ []) by (rewrite map_length; lia).
        apply row_loss_class; [apply nth_In; lia|]. rewrite Forall_forall in FP. apply FP, nth_In. rewrite map_length. lia.
      + specialize (Best h Hh). rewrite (plan_loss T (score est) Xh yh wh CT He Hd), (plan_loss T h Xh yh wh CT Hh Hd) in Best.
        assert (0 < INR (length Xt))%R by (destruct Xt; [easy|apply lt_0_INR; cbn; lia]).
        apply Rmult_le_reg_l in Best; [|auto]. unfold total. rewrite !spent_split. apply Rplus_le_compat_l, Rmult_le_compat_l; [exact Ha|].
        eapply Rle_trans; [exact Best|]. unfold spent. apply msum_le. intros i0 Hi0. apply msum_le. intros j0 Hj0.
        apply Rmult_le_compat_r; [apply CT; auto|now apply Better].
    - intros p Ep. destruct i as [|i]; [destruct HP as [HP _]; congruence|]. destruct HP as (h' & p' & T' & _ & _ & Eq & Ep' & CT' & B). assert (p' = p) by congruence. subst p'.
      cbn [Nat.eqb] in Elot. rewrite <- Elot. eapply Rle_trans; [apply (Opt T' CT')|]. eapply Rle_trans; [|exact B]. apply Req_le, spent_ext. intros i0 j0 Hi0 Hj0.
      rewrite (cost_at _ _ _ _ (length a) (length b)) by auto. cbn [Nat.ltb Nat.leb]. unfold total. now rewrite Eq by auto.
    - intros [[A1 N] Pos]. apply spent_nonneg; [exact CT|]. intros i0 j0 Hi0 Hj0. unfold total. apply Rplus_le_le_0_compat; apply Rmult_le_pos; auto. lra.
  Qed.
End Classification.

Theorem C178_classification : forall Est Xrow solve (fit : list Xrow -> list Z -> list R -> res Est) (pred : Est -> list Xrow -> tgt_pred) metric
    (score : Est -> Xrow -> list R) (H : (Xrow -> list R) -> Prop) h0 alpha tol n dist ys Xt ws wt est lot llab T w,
  exact_ot solve -> (forall est X, pred_matrix metric (pred est X) = Ok (map (score est) X)) -> (forall h x, H h -> length (h x) = length (unique ys)) ->
  minimises_loss metric ys H score fit -> H h0 -> (forall x c, In c ys -> (class_loss metric ys c (h0 x) <= 10)%R) -> (0 <= alpha)%R ->
  Xt <> [] -> matrix (length ys) (length Xt) dist -> (forall l, ws = Some l -> length l = length ys) -> (forall l, wt = Some l -> length l = length Xt) ->
  solve_jdot_classification solve fit pred metric alpha 0 tol n dist ys Xt ws wt = Ok (est, lot, llab, T, w) ->
  descending lot /\
  ((alpha <= 1)%R -> Forall (Forall (fun x => 0 <= x)%R) dist -> (0 < mean (concat dist))%R ->
   (forall h x c, H h -> In c ys -> (0 <= class_loss metric ys c (h x))%R) ->
   Forall (fun x => 0 <= x)%R lot /\ (w = true -> (INR (n - 1) * tol <= nth 0 lot 0)%R)).
Proof.
  intros Est Xrow solve fit pred metric score H h0 alpha tol n dist ys Xt ws wt est lot llab T w Hs Hp HL Hf H0 Ht Ha Nx HM Hws Hwt E.
  unfold solve_jdot_classification in E. apply bind_ok in E as [[[[s lo] ll] wa] [El E]]. cbn in E.
  destruct (snd s) as [[e T0]|]; [|discriminate]. injection E as <- <- <- <- <-.
  set (a := marginal (length ys) ws) in *. set (b := marginal (length Xt) wt) in *.
  assert (La : length a = length ys) by now apply marginal_len. assert (Lb : length b = length Xt) by now apply marginal_len.
  pose proof (fun i s prev s' l1 l2 => step_cls solve fit pred metric score H h0 alpha (norm_mean dist) ys Xt a b Hs Hp HL Hf H0 Ht Ha Nx
     ltac:(rewrite La, Lb; now apply norm_matrix) (eq_sym La) (eq_sym Lb) i s prev s' l1 l2) as Step.
  assert (Init : P_cls metric H alpha (norm_mean dist) ys Xt a b 0 (initial_cost (length ys) (length Xt), @None (Est * list (list R))) None) by (split; reflexivity).
  destruct (loop_down _ tol n _ _ Step n 0 _ None None _ _ _ _ Init eq_refl El) as (D1 & _ & D3 & D4).
  split; [exact D1|]. intros A1 Fd Pd Pos.
  assert (Low : (((alpha <= 1)%R /\ (forall i j, i < length a -> j < length b -> (0 <= at2 (norm_mean dist) i j)%R)) /\ (forall h x c, H h -> In c ys -> (0 <= class_loss metric ys c (h x))%R))).
  { split; [|exact Pos]. split; [exact A1|]. intros i j Hi Hj. apply (norm_pos (length ys) (length Xt)); auto; lia. }
  split; [now apply D3|]. intros Hw. destruct (D4 Low Hw) as (_ & _ & _ & Q). now apply Q.
Qed.

(** ** Concrete cases: one target sample, so the only plan sends every source there. *)
Definition one_target (M : list (list R)) (a b : list R) : res (list (list R) * R) :=
  let T := map (fun x => [x]) a in
  if length b =? 1 then (if ClassicalDedekindReals.sig_not_dec (coupling a b T) then Ok (T, spent (length a) (length b) (at2 M) T) else Err ValueError) else Err ValueError.
Lemma one_target_exact : exact_ot one_target.
Proof.
  intros M a b T v HM H. unfold one_target in H. destruct (length b =? 1) eqn:E; [|discriminate]. apply Nat.eqb_eq in E.
  destruct (ClassicalDedekindReals.sig_not_dec _) as [N|N]; [|discriminate]. apply NNPP in N. injection H as <- <-. split; [exact N|]. split; [reflexivity|].
  intros T' C'. apply Req_le. unfold spent. apply msum_ext. intros i Hi. apply msum_ext. intros j Hj. f_equal.
  destruct C' as (_ & _ & R1 & _). destruct N as (_ & _ & R2 & _). specialize (R1 i Hi). specialize (R2 i Hi). rewrite E in *. cbn in R1, R2.
  assert (j = 0) by lia. subst j. lra.
Qed.
Lemma one_target_half M : one_target M [1 / 2; 1 / 2]%R [1]%R = Ok ([[1 / 2]; [1 / 2]]%R, spent 2 1 (at2 M) [[1 / 2]; [1 / 2]]%R).
Proof.
  unfold one_target. cbn [length Nat.eqb map]. destruct (ClassicalDedekindReals.sig_not_dec _) as [N|N]; [reflexivity|]. exfalso. apply N. clear N. split; [|split; [|split]].
  - split; [reflexivity|]. repeat constructor.
  - intros [|[|i]] [|j] Hi Hj; cbn in *; try lia; unfold at2; cbn; lra.
  - intros [|[|i]] Hi; cbn in *; try lia; unfold at2; cbn; lra.
  - intros [|j] Hj; cbn in *; try lia; unfold at2; cbn; lra.
Qed.
Lemma halves : marginal 2 None = [1 / 2; 1 / 2]%R /\ marginal 1 None = [1]%R.
Proof. split; cbn; repeat apply (f_equal2 (@cons R)); try reflexivity; lra. Qed.
(** Source labels 0 and 2, the estimator may predict any number; two iterations. *)
Definition any_number (y : list R) (w : option (list R)) : res (unit * list R) := match w with None => if length y =? 1 then Ok (tt, y) else Err ValueError | Some _ => Err ValueError end.
Example C178_ex_regression : exact_ot one_target /\ least_squares 1 (fun f => length f = 1) any_number /\
  exists lot llab T w, solve_jdot_regression one_target any_number (1/2) (1/10) 2 [[1]; [4]]%R [0; 2]%R 1 None None = Ok (tt, lot, llab, T, w).
Proof.
  split; [exact one_target_exact|]. split.
  - intros yth [wt|] est yp H; [discriminate|]. unfold any_number in H. destruct (length yth =? 1) eqn:E; [|discriminate]. apply Nat.eqb_eq in E. injection H as <- <-. split; [exact E|]. intros f Hf. cbn [msum].
    unfold fit_weight. rewrite Rminus_diag_eq by reflexivity. rewrite Rsqr_0. pose proof (Rle_0_sqr (nth 0 yth 0 - nth 0 f 0)%R). lra.
  - unfold solve_jdot_regression. cbn [length]. rewrite (proj1 halves), (proj2 halves). cbn [jdot_loop]. unfold reg_step. cbn -[small_change spent mean inner_mat one_target jdot_cost].
    rewrite !one_target_half. cbn -[small_change spent mean inner_mat one_target jdot_cost].
    repeat (rewrite ?one_target_half; cbn -[small_change spent mean inner_mat one_target jdot_cost]; match goal with |- context [small_change ?a ?b ?c] => destruct (small_change a b c) end);
    rewrite ?one_target_half; cbn -[spent mean inner_mat jdot_cost one_target]; repeat eexists; reflexivity.
Qed.
(** Source classes 7 and 3, a classifier that always answers 3 or always 7, whichever is better for the hinge loss. *)
Definition side (b : bool) (_ : unit) : list R := if b then [1; -1]%R else [-1; 1]%R.
Definition better (Xh : list unit) (yh : list Z) (wh : list R) : res bool :=
  Ok (if Rle_dec (weighted_loss MHinge [7; 3]%Z Xh yh wh (side true)) (weighted_loss MHinge [7; 3]%Z Xh yh wh (side false)) then true else false).
Lemma half_data : jdot_data [tt] [[1 / 2; 1 / 2]]%R [3; 7]%Z 0 = Ok ([tt; tt], [3; 7]%Z, [1 / 2; 1 / 2]%R).
Proof.
  unfold jdot_data. cbn [concat app np_max bind flat_map length nth repeat map]. set (m := list_max _ _).
  assert (E : Rltb (0 * m) (1 / 2) = true) by (apply Rltb_iff; lra). rewrite E. reflexivity.
Qed.
Lemma half_plan : label_plan [[1 / 2]; [1 / 2]]%R (map (onehot [3; 7]%Z) [7; 3]%Z) 1 2 = [[1 / 2; 1 / 2]]%R.
Proof. cbn. apply (f_equal2 (@cons (list R))); [|reflexivity]. repeat apply (f_equal2 (@cons R)); try reflexivity; lra. Qed.
Lemma half_step i Mf s : exists e M l k, cls_step one_target better (fun e X => PDecision (map (side e) X)) MHinge (1/2) 0 Mf [7; 3]%Z [tt] [1 / 2; 1 / 2]%R [1]%R i s = Ok ((M, Some (e, [[1 / 2]; [1 / 2]]%R)), l, k).
Proof.
  unfold cls_step. change (unique [7; 3]%Z) with [3; 7]%Z. change (length [tt]) with 1. change (length [3; 7]%Z) with 2. rewrite one_target_half. cbn [bind].
  rewrite half_plan, half_data. cbn [bind]. unfold better. cbn [bind]. destruct (Rle_dec _ _); cbn -[row_loss spent inner_mat]; repeat eexists; reflexivity.
Qed.
Example C178_ex_classification : minimises_loss MHinge [7; 3]%Z (fun h => h = side true \/ h = side false) side better /\
  (forall x c, In c [7; 3]%Z -> (class_loss MHinge [7; 3]%Z c (side true x) <= 10)%R) /\
  exists est lot llab T w, solve_jdot_classification one_target better (fun e X => PDecision (map (side e) X)) MHinge (1/2) 0 (1/10) 2 [[1]; [4]]%R [7; 3]%Z [tt] None None = Ok (est, lot, llab, T, w).
Proof.
  split; [|split].
  - intros Xh yh wh est H. unfold better in H. destruct (Rle_dec _ _) as [L|L]; injection H as <-; (split; [auto|]); intros h [->| ->]; lra.
  - intros [] c [<-|[<-|[]]]; unfold class_loss, hinge_cost; cbn; unfold Rmax; repeat destruct (Rle_dec _ _); lra.
  - unfold solve_jdot_classification. change (length [7; 3]%Z) with 2. change (length [tt]) with 1. rewrite (proj1 halves), (proj2 halves). cbn [jdot_loop].
    destruct (half_step 0 (norm_mean [[1]; [4]]%R) (initial_cost 2 1, None)) as (e1 & M1 & l1 & k1 & E1). rewrite E1. cbn [bind].
    destruct (half_step 1 (norm_mean [[1]; [4]]%R) (M1, Some (e1, [[1 / 2]; [1 / 2]]%R))) as (e2 & M2 & l2 & k2 & E2). rewrite E2. cbn [bind Nat.eqb Nat.sub].
    repeat match goal with |- context [small_change ?a ?b ?c] => destruct (small_change a b c) end; cbn; repeat eexists; reflexivity.
Qed.
