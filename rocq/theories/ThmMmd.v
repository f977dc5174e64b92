(** * C177: KMMReweight and MMDTarSReweight match the mean of the target in the feature space of the kernel *)
From Coq Require Import String List ZArith QArith Bool Arith Lia Reals Lra Psatz.
From Coq Require Import Classical_Prop.
From Verif Require Import Np NpFacts Labels Spec SpecFacts UtilsModel UtilsSpec UtilsProofs SelectModel RVec RVecFacts FWModel FWSpec FWProofs ThmFW MapModel RMat ReweightModel ReweightSpec ReweightProofs ThmReweight ThmRew2 TarsModel.
Import ListNotations.
Local Open Scope nat_scope.
Local Open Scope list_scope.

(** ** Specification. [phi x]: the D features of a sample. *)
Section Spec.
  Context {Row : Type}.
  Variable D : nat.
  Variable phi : Row -> nat -> R.
  (** The kernel of these features. *)
  Definition kernel_of (kern : Row -> Row -> R) : Prop := forall x y, kern x y = msum D (fun l => phi x l * phi y l)%R.
  (** Feature [l] of the weighted sum of samples. *)
  Definition weighted (w : list R) (X : list Row) (l : nat) : R := vsum (map2 (fun a x => a * phi x l)%R w X).
  (** Squared distance of the weighted mean of the sources to the mean of the targets: the squared maximum mean discrepancy. *)
  Definition mmd2 (w : list R) (Xs Xt : list Row) : R :=
    msum D (fun l => Rsqr (weighted w Xs l / INR (length Xs) - weighted (repeat 1%R (length Xt)) Xt l / INR (length Xt)))%R.
  Definition target_norm2 (Xt : list Row) : R := msum D (fun l => Rsqr (weighted (repeat 1%R (length Xt)) Xt l / INR (length Xt))).
End Spec.

(** ** Lemmas *)
Section Lemmas.
  Context {Row : Type}.
  Variable D : nat.
  Variable phi : Row -> nat -> R.
  Variable kern : Row -> Row -> R.
  Hypothesis Hk : kernel_of D phi kern.

  Lemma weighted_cons a w x X l : weighted phi (a :: w) (x :: X) l = (a * phi x l + weighted phi w X l)%R.
  Proof. reflexivity. Qed.
  Lemma row_dot x : forall Y v, length v = length Y -> dot (map (kern x) Y) v = msum D (fun l => phi x l * weighted phi v Y l)%R.
  Proof.
    induction Y as [|y Y IH]; intros [|b v] L; try discriminate.
    - symmetry. rewrite (msum_ext D _ (fun _ => 0%R)); [apply msum_zero|]. intros l _. unfold weighted. cbn. ring.
    - cbn [map]. unfold dot in *. cbn [map2 vsum]. rewrite IH by (cbn in L; lia). rewrite Hk, <- msum_scal_r, <- msum_plus. apply msum_ext.
      intros l _. rewrite weighted_cons. ring.
  Qed.
  Lemma bilinear : forall X w Y v, length w = length X -> length v = length Y ->
    dot w (matvec (kernel_matrix Row kern X Y) v) = msum D (fun l => weighted phi w X l * weighted phi v Y l)%R.
  Proof.
    induction X as [|x X IH]; intros [|a w] Y v L Lv; try discriminate.
    - symmetry. rewrite (msum_ext D _ (fun _ => 0%R)); [apply msum_zero|]. intros l _. unfold weighted. cbn. ring.
    - unfold kernel_matrix, matvec in *. cbn [map]. unfold dot in *. cbn [map2 vsum]. rewrite IH by (cbn in L; lia || auto).
      pose proof (row_dot x Y v Lv) as E. unfold dot in E. rewrite E. rewrite <- msum_scal, <- msum_plus. apply msum_ext. intros l _. rewrite weighted_cons. ring.
  Qed.
  Lemma vsum_ones : forall r, vsum r = dot r (repeat 1%R (length r)).
  Proof. induction r as [|x r IH]; [reflexivity|]. unfold dot in *. cbn [length repeat map2 vsum]. rewrite <- IH. ring. Qed.
  Lemma dot_scal_r a : forall u v, dot u (map (Rmult a) v) = (a * dot u v)%R.
  Proof. induction u as [|x u IH]; intros [|y v]; unfold dot in *; cbn; try ring. rewrite IH. ring. Qed.

  Lemma kmm_obj Xs Xt w : Xs <> [] -> Xt <> [] -> length w = length Xs ->
    objective (kernel_matrix Row kern Xs Xs)
              (Some (map Ropp (map (fun r => INR (length (kernel_matrix Row kern Xs Xs)) * mean r)%R (kernel_matrix Row kern Xs Xt)))) w =
    (INR (length Xs) * INR (length Xs) / 2 * (mmd2 D phi w Xs Xt - target_norm2 D phi Xt))%R.
  Proof.
    intros Ns Nt L. unfold objective. rewrite bilinear by auto.
    assert (E : map Ropp (map (fun r => INR (length (kernel_matrix Row kern Xs Xs)) * mean r)%R (kernel_matrix Row kern Xs Xt)) =
                map (Rmult (- (INR (length Xs) / INR (length Xt)))) (matvec (kernel_matrix Row kern Xs Xt) (repeat 1%R (length Xt)))).
    { unfold matvec, kernel_matrix. rewrite !map_map. apply map_ext. intros x. unfold mean. rewrite !map_length.
      rewrite (vsum_ones (map (kern x) Xt)), map_length. unfold Rdiv. ring. }
    rewrite E, dot_scal_r, bilinear by (auto; now rewrite repeat_length).
    assert (0 < INR (length Xs))%R by (destruct Xs; [easy|apply lt_0_INR; cbn; lia]).
    assert (0 < INR (length Xt))%R by (destruct Xt; [easy|apply lt_0_INR; cbn; lia]).
    unfold mmd2, target_norm2. rewrite <- !msum_scal.
    replace (msum D (fun l => Rsqr (weighted phi w Xs l / INR (length Xs) - weighted phi (repeat 1 (length Xt)) Xt l / INR (length Xt))) -
             msum D (fun l => Rsqr (weighted phi (repeat 1 (length Xt)) Xt l / INR (length Xt))))%R
      with (msum D (fun l => Rsqr (weighted phi w Xs l / INR (length Xs) - weighted phi (repeat 1 (length Xt)) Xt l / INR (length Xt)) +
             (-1) * Rsqr (weighted phi (repeat 1 (length Xt)) Xt l / INR (length Xt))))%R by (rewrite msum_plus, msum_scal; ring).
    rewrite <- msum_scal, <- msum_plus. apply msum_ext. intros l _. unfold Rsqr. field. lra.
  Qed.
  Lemma ker_square Xs : square (length Xs) (kernel_matrix Row kern Xs Xs).
  Proof. split; unfold kernel_matrix; [apply map_length|]. apply Forall_forall. intros r Hr. apply in_map_iff in Hr as (x & <- & _). apply map_length. Qed.
  Lemma kern_sym x y : kern x y = kern y x.
  Proof. rewrite !Hk. apply msum_ext. intros l _. ring. Qed.
  Lemma ker_entry Xs i j : nth j (nth i (kernel_matrix Row kern Xs Xs) []) 0%R =
    match nth_error Xs i, nth_error Xs j with Some x, Some y => kern x y | _, _ => 0%R end.
  Proof.
    unfold kernel_matrix.
    destruct (nth_error Xs i) as [x|] eqn:Ei.
    - rewrite (nth_error_nth (map (fun x => map (kern x) Xs) Xs) i [] (x := map (kern x) Xs)) by (now rewrite nth_error_map, Ei).
      destruct (nth_error Xs j) as [y|] eqn:Ej.
      + apply nth_error_nth. now rewrite nth_error_map, Ej.
      + apply nth_overflow. rewrite map_length. now apply nth_error_None.
    - rewrite (nth_overflow (map _ Xs)) by (rewrite map_length; now apply nth_error_None). destruct j; reflexivity.
  Qed.
  Lemma ker_sym Xs : FWSpec.symmetric (kernel_matrix Row kern Xs Xs).
  Proof.
    intros i j. rewrite !ker_entry. destruct (nth_error Xs i), (nth_error Xs j); try reflexivity. apply kern_sym.
  Qed.
  Lemma ker_psd Xs : psd (length Xs) (kernel_matrix Row kern Xs Xs).
  Proof. intros v L. rewrite bilinear by auto. apply msum_nonneg. intros l _. apply Rle_0_sqr. Qed.
End Lemmas.

(** ** KMM with the scipy solver *)
(** What is expected from an external minimiser: the point it returns meets the constraints and no point meeting them has a smaller value. *)
Definition minimises (slsqp : scipy_problem -> (list R -> res R) -> list R -> res (list R * R)) : Prop :=
  forall p F x0 x v, slsqp p F x0 = Ok (x, v) -> meets_problem p x /\
    forall x' a b, meets_problem p x' -> F x = Ok a -> F x' = Ok b -> (a <= b)%R.
(** The weights that KMM allows. *)
Definition kmm_allowed (B e : R) (n : nat) (w : list R) : Prop :=
  length w = n /\ Forall (fun t => 0 <= t <= B)%R w /\ (INR n * (1 - e) <= vsum w <= INR n * (1 + e))%R.
Definition kmm_slack (eps : option R) (n : nat) : R := match eps with Some e => e | None => ((sqrt (INR n) - 1) / sqrt (INR n))%R end.

Lemma qp_func_total n Q c x : square n Q -> length c = n -> length x = n -> qp_func Q (Some c) x = Ok (objective Q (Some c) x).
Proof.
  intros [HQ HF] Hc Hx. unfold qp_func.
  assert (M : np_matvec Q x = Ok (matvec Q x)).
  { unfold np_matvec, matvec. clear HQ. induction HF as [|r Q Hr HF IH]; [reflexivity|]. cbn [mapM map]. unfold np_dot at 1. rewrite Hr, Hx, Nat.eqb_refl.
    cbn [bind]. now rewrite IH. }
  rewrite M. cbn [bind]. unfold np_dot. unfold matvec at 1. rewrite map_length, HQ, Hx, Nat.eqb_refl. cbn [bind]. rewrite Hc, Nat.eqb_refl. reflexivity.
Qed.
Lemma ones_dot : forall n w, length w = n -> dot (repeat 1%R n) w = vsum w.
Proof. intros n w <-. induction w as [|t w IH]; [reflexivity|]. unfold dot in *. cbn. rewrite IH. ring. Qed.
Lemma mones_dot : forall n w, length w = n -> dot (map Ropp (repeat 1%R n)) w = (- vsum w)%R.
Proof. intros n w <-. induction w as [|t w IH]; [cbn; unfold dot; cbn; ring|]. unfold dot in *. cbn. rewrite IH. ring. Qed.
Lemma bounds_iff B : forall n w, Forall2 Rle (repeat 0%R n) w /\ Forall2 Rle w (map (fun t => t * B)%R (repeat 1%R n)) <->
  length w = n /\ Forall (fun t => 0 <= t <= B)%R w.
Proof.
  induction n as [|n IH]; intros [|t w]; cbn [repeat map length].
  - split; intros _; repeat split; constructor.
  - split; [intros [H _]; inversion H|intros [H _]; discriminate].
  - split; [intros [H _]; inversion H|intros [H _]; discriminate].
  - specialize (IH w). split.
    + intros [H1 H2]. inversion H1 as [|? ? ? ? P1 Q1]; subst. inversion H2 as [|? ? ? ? P2 Q2]; subst.
      destruct (proj1 IH (conj Q1 Q2)) as [E F]. split; [congruence|]. constructor; [lra|exact F].
    + intros [E F]. inversion F as [|? ? P Q]; subst. destruct (proj2 IH (conj (eq_add_S _ _ E) Q)) as [A C]. split; constructor; auto; lra.
Qed.
Lemma kmm_meets B e n w :
  meets_problem (scipy_build (Some [repeat 1%R n; map Ropp (repeat 1%R n)]) (Some [(INR n * (1 + e))%R; (- INR n * (1 - e))%R]) None None
    (Some (repeat 0%R n)) (Some (map (fun t => t * B)%R (repeat 1%R n)))) w <-> kmm_allowed B e n w.
Proof.
  pose proof (C79_scipy_problem (Some ([repeat 1%R n; map Ropp (repeat 1%R n)], [(INR n * (1 + e))%R; (- INR n * (1 - e))%R])) None
     (Some (repeat 0%R n)) (Some (map (fun t => t * B)%R (repeat 1%R n))) w) as H. cbn [option_map fst snd] in H.
  assert (G : forall l u, Some (repeat 0%R n) = Some l -> Some (map (fun t => t * B)%R (repeat 1%R n)) = Some u -> length l = length u).
  { intros l u [= <-] [= <-]. now rewrite map_length, !repeat_length. }
  specialize (H G). rewrite H. clear H G. unfold kmm_allowed. split.
  - intros (A & _ & L & U). destruct (proj1 (bounds_iff B n w) (conj (L _ eq_refl) (U _ eq_refl))) as [Lw F].
    pose proof (A _ _ eq_refl) as S. inversion S as [|? ? ? ? S1 S2]; subst. inversion S2 as [|? ? ? ? S3 S4]; subst.
    rewrite ones_dot in S1 by auto. rewrite mones_dot in S3 by auto. repeat split; auto; lra.
  - intros (Lw & F & S). destruct (proj2 (bounds_iff B n w) (conj Lw F)) as [L U]. repeat split.
    + intros A b [= <- <-]. constructor; [rewrite ones_dot by auto; lra|]. constructor; [rewrite mones_dot by auto; lra|constructor].
    + discriminate.
    + intros l [= <-]. exact L.
    + intros u [= <-]. exact U.
Qed.

Lemma nonempty_len {A} (l : list A) : l <> [] -> (0 < INR (length l))%R.
Proof. intros N. destruct l; [easy|]. apply lt_0_INR. cbn. lia. Qed.

Theorem C177_kmm_scipy : forall Row D phi kern slsqp B eps max_iter (X : list Row) sda w Xs, kernel_of D phi kern -> minimises slsqp ->
  kmm_fit Row slsqp kern B eps max_iter "scipy" X sda = Ok (w, Xs) ->
  let sd := eff_domain (length X) sda in let Xt := rows_of is_target sd X in
  Xs = rows_of is_source sd X /\
  (Xs <> [] -> Xt <> [] -> kmm_allowed B (kmm_slack eps (length Xs)) (length Xs) w /\
   forall w', kmm_allowed B (kmm_slack eps (length Xs)) (length Xs) w' -> (mmd2 D phi w Xs Xt <= mmd2 D phi w' Xs Xt)%R).
Proof.
  intros Row D phi kern slsqp B eps mi X sda w Xs Hk Hm H sd Xt. unfold kmm_fit in H.
  apply bind_ok in H as [[s t] [Hsp H]]. apply rw_split_ok in Hsp as (L & _ & -> & ->). fold sd in H, L. cbn [fst snd] in H. fold Xt in H.
  apply bind_ok in H as [w1 [Hw H]]. injection H as -> <-. split; [reflexivity|]. set (S := rows_of is_source sd X) in *. intros Ns Nt.
  unfold kmm_optim in Hw. apply bind_ok in Hw as [[x f] [Hq Hw]]. injection Hw as Hw. cbn [fst] in Hw. subst x.
  assert (LK : length (kernel_matrix Row kern S S) = length S) by apply map_length.
  unfold qp_solve in Hq. change (String.eqb "scipy" "scipy") with true in Hq. cbv iota in Hq. apply Hm in Hq as [M O]. rewrite LK in M.
  change (kmm_eps eps (length S)) with (kmm_slack eps (length S)) in M. apply kmm_meets in M. split; [exact M|]. intros w' M'.
  destruct M as (Lw & Fw & Sw). destruct M' as (Lw' & Fw' & Sw').
  specialize (O w'). rewrite !(qp_func_total (length S)) in O; auto using ker_square; try (unfold kernel_matrix; now rewrite !map_length).
  rewrite !(kmm_obj D phi kern Hk) in O by auto.
  assert (M' : meets_problem (scipy_build (Some [repeat 1%R (length S); map Ropp (repeat 1%R (length S))])
     (Some [(INR (length S) * (1 + kmm_slack eps (length S)))%R; (- INR (length S) * (1 - kmm_slack eps (length S)))%R]) None None
     (Some (repeat 0%R (length S))) (Some (map (fun t => t * B)%R (repeat 1%R (length S))))) w') by (apply kmm_meets; repeat split; tauto).
  rewrite LK in O. specialize (O _ _ M' eq_refl eq_refl). pose proof (nonempty_len S Ns) as P.
  apply Rmult_le_reg_l in O; [lra|]. assert (0 < INR (length S) * INR (length S))%R by now apply Rmult_lt_0_compat. lra.
Qed.

(** ** KMM with the Frank-Wolfe solver: an explicit rate, independent of the number of samples *)
Section Bound.
  Context {Row : Type}.
  Variable D : nat.
  Variable phi : Row -> nat -> R.
  Variable kern : Row -> Row -> R.
  Hypothesis Hk : kernel_of D phi kern.
  Variable kappa : R.
  Hypothesis Hb : forall x, (kern x x <= kappa)%R.
  Definition l1 (v : list R) : R := vsum (map Rabs v).
  Lemma l1_nonneg v : (0 <= l1 v)%R.
  Proof. induction v as [|x v IH]; unfold l1 in *; cbn; [lra|]. pose proof (Rabs_pos x). lra. Qed.
  Lemma kern_bound x y : (Rabs (kern x y) <= kappa)%R.
  Proof.
    assert (P : (0 <= kern x x + kern y y + 2 * kern x y)%R).
    { replace (kern x x + kern y y + 2 * kern x y)%R with (msum D (fun l => Rsqr (phi x l + phi y l))); [apply msum_nonneg; intros; apply Rle_0_sqr|].
      rewrite !Hk, <- msum_scal, <- !msum_plus. apply msum_ext. intros l _. unfold Rsqr. ring. }
    assert (Q : (0 <= kern x x + kern y y - 2 * kern x y)%R).
    { replace (kern x x + kern y y - 2 * kern x y)%R with (msum D (fun l => Rsqr (phi x l - phi y l))); [apply msum_nonneg; intros; apply Rle_0_sqr|].
      replace (kern x x + kern y y - 2 * kern x y)%R with (kern x x + kern y y + (-2) * kern x y)%R by ring.
      rewrite !Hk, <- msum_scal, <- !msum_plus. apply msum_ext. intros l _. unfold Rsqr. ring. }
    pose proof (Hb x). pose proof (Hb y). unfold Rabs. destruct (Rcase_abs (kern x y)); lra.
  Qed.
  Lemma row_bound x : forall Y v, length v = length Y -> (Rabs (dot (map (kern x) Y) v) <= kappa * l1 v)%R.
  Proof.
    induction Y as [|y Y IH]; intros [|b v] L; try discriminate.
    - unfold dot, l1. cbn. rewrite Rabs_R0. lra.
    - cbn in L. specialize (IH v ltac:(lia)). unfold dot, l1 in *. cbn [map map2 vsum]. eapply Rle_trans; [apply Rabs_triang|]. rewrite Rabs_mult.
      pose proof (kern_bound x y). pose proof (Rabs_pos b). nra.
  Qed.
  Lemma form_bound Y v : length v = length Y -> forall X w, length w = length X -> (dot w (matvec (kernel_matrix Row kern X Y) v) <= kappa * l1 v * l1 w)%R.
  Proof.
    intros Lv. induction X as [|x X IH]; intros [|a w] L; try discriminate.
    - unfold dot, l1. cbn. lra.
    - cbn in L. specialize (IH w ltac:(lia)). unfold kernel_matrix, matvec, l1 in *. cbn [map]. unfold dot in *. cbn [map2 vsum].
      pose proof (row_bound x Y v Lv) as B. unfold dot, l1 in B. set (d := vsum (map2 Rmult (map (kern x) Y) v)) in *.
      assert (a * d <= Rabs a * Rabs d)%R by (rewrite <- Rabs_mult; apply Rle_abs).
      pose proof (Rabs_pos a). nra.
  Qed.
  Lemma l1_vsub : forall u v, nonneg u -> nonneg v -> length u = length v -> (l1 (vsub u v) <= vsum u + vsum v)%R.
  Proof.
    induction u as [|x u IH]; intros [|y v] U V L; try discriminate; unfold l1, vsub in *; cbn [map2 map vsum]; [lra|].
    inversion U; inversion V; subst. specialize (IH v). assert (E : (vsum (map Rabs (map2 Rminus u v)) <= vsum u + vsum v)%R) by (apply IH; auto; cbn in L; lia).
    assert (Rabs (x - y) <= x + y)%R by (unfold Rabs; destruct (Rcase_abs (x - y)); lra). lra.
  Qed.
End Bound.
Lemma map2_len {A B C} (f : A -> B -> C) : forall u v, length u = length v -> length (map2 f u v) = length u.
Proof. induction u as [|x u IH]; intros [|y v] L; try discriminate; cbn; auto. Qed.
Lemma vsum_const a n : vsum (repeat a n) = (INR n * a)%R.
Proof. induction n as [|n IH]; [cbn; ring|]. cbn [repeat vsum]. rewrite IH, S_INR. ring. Qed.
Lemma positive_ones n : positive (repeat 1%R n).
Proof. unfold positive. apply Forall_forall. intros x Hx. apply repeat_spec in Hx. lra. Qed.

Theorem C177_kmm_frank_wolfe : forall Row D phi kern slsqp B eps max_iter (X : list Row) sda w Xs kappa, kernel_of D phi kern ->
  (forall x, (kern x x <= kappa)%R) -> (forall e, eps = Some e -> 0 <= e <= 1)%R -> 1 <= max_iter ->
  kmm_fit Row slsqp kern B eps max_iter "frank-wolfe" X sda = Ok (w, Xs) ->
  let sd := eff_domain (length X) sda in let Xt := rows_of is_target sd X in
  let e := kmm_slack eps (length Xs) in
  Xs = rows_of is_source sd X /\
  (Xs <> [] -> Xt <> [] -> forall w', length w' = length Xs -> nonneg w' ->
     (INR (length Xs) * (1 - e) <= vsum w' <= INR (length Xs) * (1 + e) ->
      mmd2 D phi w Xs Xt <= mmd2 D phi w' Xs Xt + 16 * kappa * (1 + e) * (1 + e) / (INR max_iter + 2))%R).
Proof.
  intros Row D phi kern slsqp B eps mi X sda w Xs kappa Hk Hb He Hmi H sd Xt e. unfold kmm_fit in H.
  apply bind_ok in H as [[s t] [Hsp H]]. apply rw_split_ok in Hsp as (L & _ & -> & ->). fold sd in H, L. cbn [fst snd] in H. fold Xt in H.
  apply bind_ok in H as [w1 [Hw H]]. injection H as -> <-. split; [reflexivity|]. set (S := rows_of is_source sd X) in *. intros Ns Nt w' Lw' Nw' Sw'.
  unfold kmm_optim in Hw. apply bind_ok in Hw as [[x f] [Hq Hw]]. injection Hw as Hw. cbn [fst] in Hw. subst x.
  assert (LK : length (kernel_matrix Row kern S S) = length S) by apply map_length.
  pose proof (nonempty_len S Ns) as PS. set (n := INR (length S)) in *.
  assert (E0 : (0 <= e <= 1)%R).
  { unfold e, kmm_slack. destruct eps as [e0|]; [now apply He|]. fold n.
    assert (1 <= n)%R. { unfold n. change 1%R with (INR 1). apply le_INR. destruct S; [easy|]. cbn. lia. }
    assert (1 <= sqrt n)%R by (rewrite <- sqrt_1; apply sqrt_le_1; lra).
    assert (0 < / sqrt n)%R by (apply Rinv_0_lt_compat; lra). assert (sqrt n * / sqrt n = 1)%R by (apply Rinv_r; lra).
    unfold Rdiv. nra. }
  unfold qp_solve in Hq. change (String.eqb "frank-wolfe" "scipy") with false in Hq. change (String.eqb "frank-wolfe" "frank-wolfe") with true in Hq. cbv iota in Hq.
  unfold qp_solve_fw in Hq. apply bind_ok in Hq as [[] [_ Hq]]. cbn [length Nat.ltb Nat.leb get nth_error bind] in Hq.
  apply bind_ok in Hq as [y [Hy Hq]]. apply bind_ok in Hq as [g [_ Hq]]. injection Hq as <- _. rewrite LK in Hy. fold n in Hy.
  change (kmm_eps eps (length S)) with e in Hy.
  set (x0 := map (fun ic => ic * ((n * (1 + e) - - (- n * (1 - e))) / 2) / INR (length (repeat 1%R (length S))))%R (map Rinv (repeat 1%R (length S)))).
  assert (X0 : x0 = repeat (e)%R (length S)).
  { unfold x0. rewrite repeat_length. fold n. assert (forall k, map (fun ic => ic * ((n * (1 + e) - - (- n * (1 - e))) / 2) / n)%R (map Rinv (repeat 1%R k)) = repeat e k) as G.
    { induction k as [|k IH]; [reflexivity|]. cbn [repeat map]. rewrite IH. f_equal. rewrite Rinv_1. field. lra. }
    apply G. }
  pose proof (C78_converges (length S) (kernel_matrix Row kern S S)
     (Some (map Ropp (map (fun r => INR (length (kernel_matrix Row kern S S)) * mean r)%R (kernel_matrix Row kern S Xt))))
     (repeat 1%R (length S)) (- (- n * (1 - e)))%R (n * (1 + e))%R x0 mi y (kappa * (2 * n * (1 + e)) * (2 * n * (1 + e)))%R
     (ker_square kern S) (ker_sym D phi kern Hk S) (ker_psd D phi kern Hk S)) as C.
  destruct C as [Fy Cv].
  - intros d [= <-]. unfold kernel_matrix. now rewrite !map_length.
  - apply repeat_length.
  - apply positive_ones.
  - nra.
  - exact Hmi.
  - intros u v (Lu & Nu & Bu) Hv. rewrite repeat_length in Lu. rewrite ones_dot in Bu by auto.
    assert (K0 : (0 <= kappa)%R). { destruct S as [|s S']; [easy|]. pose proof (Hb s). pose proof (kern_bound D phi kern Hk kappa Hb s s). pose proof (Rabs_pos (kern s s)). lra. }
    assert (G : length v = length S /\ nonneg v /\ (vsum v <= n * (1 + e))%R).
    { destruct Hv as [(Lv & Nv & Bv)|Ev].
      - rewrite repeat_length in Lv. rewrite ones_dot in Bv by auto. repeat split; auto; lra.
      - rewrite Ev, X0. rewrite repeat_length, vsum_const. fold n. repeat split; [|nra]. apply Forall_forall. intros z Hz. apply repeat_spec in Hz. lra. }
    destruct G as (Lv & Nv & Bv).
    assert (Ld : length (vsub u v) = length S) by (unfold vsub; rewrite map2_len; congruence).
    pose proof (form_bound D phi kern Hk kappa Hb S (vsub u v) Ld S (vsub u v) Ld) as FB.
    pose proof (l1_vsub u v Nu Nv ltac:(congruence)) as LV. pose proof (l1_nonneg (vsub u v)) as L0.
    assert (LB : (l1 (vsub u v) <= 2 * n * (1 + e))%R) by nra.
    eapply Rle_trans; [exact FB|].
    apply Rmult_le_compat; auto; [now apply Rmult_le_pos|]. apply Rmult_le_compat_l; auto.
  - rewrite LK. exact Hy.
  - specialize (Cv w'). rewrite !(kmm_obj D phi kern Hk) in Cv; auto; [|destruct Fy as (Ly & _ & _); now rewrite repeat_length in Ly].
    assert (FW' : feasible (repeat 1%R (length S)) (- (- n * (1 - e))) (n * (1 + e)) w').
    { split; [now rewrite repeat_length|]. split; [exact Nw'|]. rewrite ones_dot by auto. fold n in Sw'. lra. }
    specialize (Cv FW'). fold n in Cv. pose proof (pos_INR mi) as PM.
    set (a := mmd2 D phi y S Xt) in *. set (b := mmd2 D phi w' S Xt) in *. set (c := target_norm2 D phi Xt) in *.
    assert (I : (0 < / (INR mi + 2))%R) by (apply Rinv_0_lt_compat; lra). unfold Rdiv in *. set (i := (/ (INR mi + 2))%R) in *.
    assert (N2 : (0 < n * n)%R) by nra.
    apply (Rmult_le_reg_l (n * n * / 2)); [lra|]. nra.
Qed.

(** ** MMDTarS *)
Definition ip (n : nat) (x y : nat -> R) : R := msum n (fun i => x i * y i)%R.
Definition mv (n : nat) (A : mat) (y : nat -> R) : nat -> R := fun i => msum n (fun j => A i j * y j)%R.
Lemma mv_mmul m n A B y i : mv n (mmul m A B) y i = mv m A (mv n B y) i.
Proof.
  unfold mv, mmul. rewrite (msum_ext n _ (fun j => msum m (fun l => A i l * (B l j * y j)))%R).
  - rewrite msum_swap. apply msum_ext. intros l _. now rewrite msum_scal.
  - intros j _. rewrite <- msum_scal_r. apply msum_ext. intros l _. ring.
Qed.
Lemma mv_ext n A y y' i : (forall j, j < n -> y j = y' j) -> mv n A y i = mv n A y' i.
Proof. intros H. unfold mv. apply msum_ext. intros j Hj. now rewrite H. Qed.
Lemma ip_ext n x y x' y' : (forall j, j < n -> x j = x' j) -> (forall j, j < n -> y j = y' j) -> ip n x y = ip n x' y'.
Proof. intros H G. unfold ip. apply msum_ext. intros j Hj. now rewrite H, G. Qed.
Lemma ip_mv k m x A y : ip k x (mv m A y) = ip m (mv k (mT A) x) y.
Proof.
  unfold ip, mv, mT. rewrite (msum_ext k _ (fun i => msum m (fun j => x i * (A i j * y j)))%R).
  - rewrite msum_swap. apply msum_ext. intros j _. rewrite <- msum_scal_r. apply msum_ext. intros i _. ring.
  - intros i _. now rewrite msum_scal.
Qed.
Lemma msum_S f : forall n, msum (S n) f = (f 0%nat + msum n (fun i => f (S i)))%R.
Proof. induction n as [|n IH]; [cbn; ring|]. change (msum (S (S n)) f) with (msum (S n) f + f (S n))%R. rewrite IH. cbn. ring. Qed.
Lemma weighted_nth {Row} (phi : Row -> nat -> R) row0 l : forall X w, length w = length X ->
  weighted phi w X l = msum (length X) (fun i => nth i w 0 * phi (nth i X row0) l)%R.
Proof.
  induction X as [|x X IH]; intros [|a w] L; try discriminate; [reflexivity|]. cbn [length]. rewrite weighted_cons, msum_S, IH by (cbn in L; lia). reflexivity.
Qed.
Lemma dot_nth : forall u v, length u = length v -> dot u v = msum (length u) (fun i => nth i u 0 * nth i v 0)%R.
Proof. induction u as [|x u IH]; intros [|y v] L; try discriminate; [reflexivity|]. cbn [length]. rewrite msum_S. unfold dot in *. cbn [map2 vsum nth]. now rewrite IH by (cbn in L; lia). Qed.

(** The conditional smoothing of the labels: omega is L (L + reg I)^-1; the source weights act on the samples through its transpose. *)
Definition smoothed (omega : mat) (m : nat) (w : list R) : list R := map (fun i => msum m (fun j => omega j i * nth j w 0)%R) (seq 0 m).

Lemma nth_map_seq (g : nat -> R) m i : i < m -> nth i (map g (seq 0 m)) 0%R = g i.
Proof. intros H. rewrite (nth_indep _ 0%R (g 0)) by (now rewrite map_length, seq_length). rewrite map_nth, seq_nth; auto. Qed.
Lemma map_repeat1 (X : Type) (l : list X) i : i < length l -> nth i (repeat 1%R (length l)) 0%R = 1%R.
Proof. revert i. induction l as [|x l IH]; intros [|i] H; cbn in *; try lia; auto. apply IH. lia. Qed.

Section Tars.
  Variable Row : Type.
  Variable row0 : Row.
  Variable D : nat.
  Variable phi : Row -> nat -> R.
  Variable lkern : Z -> Z -> R.
  Variable kern : Row -> Row -> R.
  Variable inv : nat -> mat -> mat.
  Variable reg : R.
  Hypothesis Hk : kernel_of D phi kern.
  Variable Xs Xt : list Row.
  Variable ys : list Z.
  Hypothesis Ls : length Xs = length ys.
  Hypothesis Ns : ys <> [].
  Hypothesis Nt : Xt <> [].
  Let m := length ys.
  Let n := length Xt.
  Let k := length (unique ys).
  Let omega := tars_omega lkern inv reg ys.

  Lemma R_row alpha j : length alpha = k -> j < m -> mv k (tars_R ys) (fun a => nth a alpha 0%R) j = class_weight (unique ys) alpha (nth j ys 0%Z).
  Proof.
    intros La Hj. rewrite <- (indicator_row (unique ys) (unique_NoDup ys)) by auto. rewrite dot_nth by (rewrite map_length; auto).
    rewrite map_length. fold k. unfold mv, tars_R. apply msum_ext. intros a Ha. f_equal.
    rewrite (nth_indep _ 0%R ((fun d => if Z.eqb (nth j ys 0%Z) d then 1%R else 0%R) 0%Z)) by (now rewrite map_length).
    now rewrite (map_nth (fun d => if Z.eqb (nth j ys 0%Z) d then 1%R else 0%R)).
  Qed.
  Lemma tars_cost_mmd alpha : length alpha = k ->
    tars_cost Row row0 lkern kern inv reg Xs Xt ys alpha =
    (INR m * INR m / 2 * (mmd2 D phi (smoothed omega m (map (class_weight (unique ys) alpha) ys)) Xs Xt - target_norm2 D phi Xt)
     + / 2 * / 1000000000000 * msum k (fun a => nth a alpha 0 * nth a alpha 0))%R.
  Proof.
    intros La. set (al := fun a => nth a alpha 0%R). set (w := mv k (tars_R ys) al). set (c := mv m (mT omega) w).
    set (U := fun l => msum m (fun i => c i * phi (nth i Xs row0) l)%R). set (V := fun l => msum n (fun i => phi (nth i Xt row0) l)%R).
    assert (Q : msum k (fun a => al a * msum k (fun b => tars_P Row row0 lkern kern inv reg Xs ys a b * al b))%R =
                (msum D (fun l => U l * U l) + / 1000000000000 * msum k (fun a => al a * al a))%R).
    { transitivity (ip k al (mv k (mmul m (mmul m (mT (tars_R ys)) (tars_A Row row0 lkern kern inv reg Xs ys)) (tars_R ys)) al)
                    + / 1000000000000 * msum k (fun a => al a * al a))%R.
      - rewrite <- msum_scal. unfold ip. rewrite <- msum_plus. apply msum_ext. intros a Ha. unfold tars_P. fold m.
        rewrite (msum_ext k (fun b => (_ + _ * _) * al b)%R (fun b => mmul m (mmul m (mT (tars_R ys)) (tars_A Row row0 lkern kern inv reg Xs ys)) (tars_R ys) a b * al b + / 1000000000000 * (al b * (if b =? a then 1 else 0)))%R).
        + rewrite msum_plus, msum_scal, msum_delta by auto. unfold mv. ring.
        + intros b _. unfold delta. rewrite (Nat.eqb_sym a b). ring.
      - f_equal.
        transitivity (ip m w (mv m (tars_A Row row0 lkern kern inv reg Xs ys) w)).
        { transitivity (ip k al (mv m (mT (tars_R ys)) (mv m (tars_A Row row0 lkern kern inv reg Xs ys) w))).
          - apply ip_ext; [auto|]. intros a _. rewrite mv_mmul, mv_mmul. reflexivity.
          - rewrite ip_mv. reflexivity. }
        transitivity (ip m c (mv m (tars_K Row row0 kern Xs) c)).
        { transitivity (ip m w (mv m omega (mv m (tars_K Row row0 kern Xs) c))).
          - apply ip_ext; [auto|]. intros a _. unfold tars_A. fold m omega. rewrite mv_mmul, mv_mmul. reflexivity.
          - now rewrite ip_mv. }
        unfold ip, mv, tars_K. rewrite (msum_ext m _ (fun i => msum D (fun l => c i * phi (nth i Xs row0) l * U l)))%R.
        + rewrite msum_swap. apply msum_ext. intros l _. now rewrite msum_scal_r.
        + intros i _. rewrite <- msum_scal. rewrite (msum_ext m _ (fun j => msum D (fun l => c i * phi (nth i Xs row0) l * (c j * phi (nth j Xs row0) l))))%R.
          * rewrite msum_swap. apply msum_ext. intros l _. now rewrite msum_scal.
          * intros j _. rewrite Hk. rewrite <- msum_scal_r, <- msum_scal. apply msum_ext. intros l _. ring. }
    assert (P : msum k (fun a => al a * tars_q Row row0 lkern kern inv reg Xs Xt ys a)%R = (- (INR m / INR n) * msum D (fun l => U l * V l))%R).
    { unfold tars_q. fold m n.
      transitivity (- (INR m / INR n) * ip k al (mv m (mT (tars_R ys)) (tars_M Row row0 lkern kern inv reg Xs Xt ys)))%R.
      { unfold ip. rewrite <- msum_scal. apply msum_ext. intros a _. unfold mv, mT.
        rewrite (msum_ext m (fun j => tars_R ys j a * tars_M Row row0 lkern kern inv reg Xs Xt ys j)%R (fun j => tars_M Row row0 lkern kern inv reg Xs Xt ys j * tars_R ys j a)%R); [ring|].
        intros j _. ring. }
      f_equal. rewrite ip_mv. change (mv k (mT (mT (tars_R ys))) al) with w.
      transitivity (ip m w (mv m omega (fun l => msum n (fun i => kern (nth i Xt row0) (nth l Xs row0))%R))).
      { apply ip_ext; [auto|]. intros j _. unfold tars_M. fold m n omega. unfold mv, mT. apply msum_ext. intros l _.
        rewrite (msum_ext n _ (fun i => kern (nth i Xt row0) (nth l Xs row0))); [ring|]. intros i _. ring. }
      rewrite ip_mv. fold c. unfold ip. rewrite (msum_ext m _ (fun i => msum D (fun l => c i * phi (nth i Xs row0) l * V l)))%R.
      - rewrite msum_swap. apply msum_ext. intros l _. now rewrite msum_scal_r.
      - intros i _. rewrite <- msum_scal. rewrite (msum_ext n _ (fun j => msum D (fun l => c i * phi (nth i Xs row0) l * phi (nth j Xt row0) l)))%R.
        + rewrite msum_swap. apply msum_ext. intros l _. now rewrite msum_scal.
        + intros j _. rewrite Hk, <- msum_scal. apply msum_ext. intros l _. ring. }
    change (tars_cost Row row0 lkern kern inv reg Xs Xt ys alpha) with
      (1 / 2 * msum k (fun a => al a * msum k (fun b => tars_P Row row0 lkern kern inv reg Xs ys a b * al b)) +
       msum k (fun a => al a * tars_q Row row0 lkern kern inv reg Xs Xt ys a))%R.
    rewrite Q, P. change (msum k (fun a => nth a alpha 0 * nth a alpha 0)%R) with (msum k (fun a => al a * al a)%R).
    assert (EU : forall l, weighted phi (smoothed omega m (map (class_weight (unique ys) alpha) ys)) Xs l = U l).
    { intros l. assert (Lc : length (smoothed omega m (map (class_weight (unique ys) alpha) ys)) = length Xs) by (unfold smoothed; now rewrite map_length, seq_length).
      rewrite (weighted_nth phi row0) by exact Lc. rewrite Ls. fold m. unfold U. apply msum_ext. intros i Hi. f_equal.
      unfold smoothed. rewrite nth_map_seq by auto. unfold c, mv at 1. apply msum_ext. intros j Hj. unfold mT. f_equal.
      unfold w, al. rewrite R_row by auto. rewrite (nth_indep _ 0%R (class_weight (unique ys) alpha 0%Z)) by (now rewrite map_length). apply map_nth. }
    assert (EV : forall l, weighted phi (repeat 1%R n) Xt l = V l).
    { intros l. rewrite (weighted_nth phi row0) by (now rewrite repeat_length). unfold V. fold n. apply msum_ext. intros i Hi.
      unfold n at 1. rewrite map_repeat1 by auto. ring. }
    assert (0 < INR m)%R by now apply nonempty_len. assert (0 < INR n)%R by now apply nonempty_len.
    unfold mmd2, target_norm2. rewrite Ls. fold m n.
    rewrite (msum_ext D (fun l => Rsqr (weighted phi (smoothed omega m (map (class_weight (unique ys) alpha) ys)) Xs l / INR m - _)) (fun l => Rsqr (U l / INR m - V l / INR n)))%R by (intros l _; now rewrite EU, EV).
    rewrite (msum_ext D (fun l => Rsqr (weighted phi (repeat 1%R n) Xt l / INR n)) (fun l => Rsqr (V l / INR n)))%R by (intros l _; now rewrite EV).
    replace (msum D (fun l => Rsqr (U l / INR m - V l / INR n)) - msum D (fun l => Rsqr (V l / INR n)))%R
      with (msum D (fun l => Rsqr (U l / INR m - V l / INR n) + (-1) * Rsqr (V l / INR n)))%R by (rewrite msum_plus, msum_scal; ring).
    assert (F : (1 / 2 * msum D (fun l => U l * U l) + - (INR m / INR n) * msum D (fun l => U l * V l) =
             INR m * INR m / 2 * msum D (fun l => Rsqr (U l / INR m - V l / INR n) + -1 * Rsqr (V l / INR n)))%R).
    { rewrite <- !msum_scal, <- msum_plus. apply msum_ext. intros l _. unfold Rsqr. field. lra. }
    rewrite <- F. field. lra.
  Qed.
End Tars.

Lemma tars_meets M k alpha : Forall (fun r => length r = k) M -> length alpha = k -> Forall (fun t => 0 <= t <= 10)%R (matvec M alpha) ->
  (INR (length M) * (1 - 10 / (4 * sqrt (INR (length M)))) <= vsum (matvec M alpha) <= INR (length M) * (1 + 10 / (4 * sqrt (INR (length M)))))%R ->
  meets_problem (tars_problem M k) alpha.
Proof.
  intros Hr La F S. unfold tars_problem.
  match goal with |- meets_problem (scipy_build (Some ?A) (Some ?b) _ _ _ _) _ => apply (C79_scipy_problem (Some (A, b)) None None None); [intros; discriminate|] end.
  split; [|repeat split; intros; discriminate]. intros A b [= <- <-]. unfold satisfies_le.
  assert (Eo : forall (a x : list R), dot (map Ropp a) x = (- dot a x)%R).
  { induction a as [|t a IH]; intros [|u x]; try (unfold dot; simpl; lra). cbn [map]. rewrite !dot_cons, IH. lra. }
  apply Forall2_app; [|cbn [app]; constructor; [|apply Forall2_app; [|constructor; [|constructor]]]].
  - clear S Hr. induction M as [|r M IH]; [constructor|]. cbn in F. inversion F as [|? ? F1 F2]; subst. constructor; [rewrite Eo; lra|now apply IH].
  - rewrite Eo, dot_col_sums by auto. lra.
  - clear S Hr. induction M as [|r M IH]; [constructor|]. cbn in F. inversion F as [|? ? F1 F2]; subst. constructor; [lra|now apply IH].
  - rewrite dot_col_sums by auto. lra.
Qed.

(** The class weights that MMDTarS allows: one number per class, the weights of the samples in [0, 10] with a bounded sum. *)
Definition tars_allowed (ys : list Z) (alpha : list R) : Prop :=
  length alpha = length (unique ys) /\ let w := map (class_weight (unique ys) alpha) ys in let m := INR (length ys) in
  Forall (fun t => 0 <= t <= 10)%R w /\ (m * (1 - 10 / (4 * sqrt m)) <= vsum w <= m * (1 + 10 / (4 * sqrt m)))%R.

Theorem C177_mmdtars : forall Row row0 D phi lkern kern inv reg solve (X : list Row) y sda st, kernel_of D phi kern ->
  (forall Xs Xt ys p a, solve Xs Xt ys p = Ok a -> meets_problem p a /\ forall a', length a' = length a -> meets_problem p a' ->
     (tars_cost Row row0 lkern kern inv reg Xs Xt ys a <= tars_cost Row row0 lkern kern inv reg Xs Xt ys a')%R) ->
  tars_fit Row solve X y sda = Ok st ->
  let sd := eff_domain (length X) sda in
  let Xs := rows_of is_source sd X in let Xt := rows_of is_target sd X in let ys := rows_of is_source sd y in let m := length ys in
  let after alpha := mmd2 D phi (smoothed (tars_omega lkern inv reg ys) m (map (class_weight (unique ys) alpha) ys)) Xs Xt in
  Xs <> [] -> Xt <> [] ->
  tars_allowed ys (ts_alpha Row st) /\ ts_weights Row st = map (class_weight (unique ys) (ts_alpha Row st)) ys /\
  forall alpha, tars_allowed ys alpha ->
    (after (ts_alpha Row st) <= after alpha + / 1000000000000 / (INR m * INR m) * msum (length alpha) (fun a => nth a alpha 0 * nth a alpha 0))%R.
Proof.
  intros Row row0 D phi lkern kern inv reg solve X y sda st Hk Hsol H sd Xs Xt ys m after NXs NXt.
  pose proof H as H0. unfold tars_fit in H. apply bind_ok in H as [sd' [Hc H]]. apply rw_check_ok in Hc as (-> & L & N). fold sd in H, L, N.
  apply bind_ok in H as [p1 [Hp1 H]]. rewrite split_ok in Hp1; auto; [|easy|intros xs [[= <-]|[]]; auto]. injection Hp1 as <-.
  apply bind_ok in H as [p2 [Hp2 H]].
  assert (Ly : length sd = length y).
  { destruct (Nat.eq_dec (length y) (length sd)) as [|Hne]; auto. exfalso.
    pose proof (split_bad_length [] y [] sd N Hne) as Q. cbn [app] in Q. rewrite Q in Hp2. discriminate. }
  rewrite split_ok in Hp2; auto; [|easy|intros xs [[= <-]|[]]; auto]. injection Hp2 as <-. cbn in H. fold ys Xs Xt in H.
  apply bind_ok in H as [al [Ha H]]. apply bind_ok in H as [w [Hw H]]. injection H as <-. cbn [ts_alpha ts_weights].
  assert (LXs : length Xs = length ys) by (unfold Xs, ys; now rewrite !rows_of_length).
  assert (Ny : ys <> []) by (intros E; rewrite E in LXs; destruct Xs; easy).
  pose proof (indicator_len _ _ _ _ Hw Ny) as La. apply np_matvec_ok in Hw as [_ Hw]. pose proof (unique_NoDup ys) as ND.
  rewrite indicator_matvec in Hw by auto. apply Hsol in Ha as [Ha Hopt].
  assert (Li : length (indicator ys (unique ys)) = length ys) by (unfold indicator; apply map_length).
  assert (Hr : Forall (fun r => length r = length (unique ys)) (indicator ys (unique ys))).
  { unfold indicator. apply Forall_map, Forall_forall. intros. apply map_length. }
  pose proof (tars_feasible _ _ _ Hr La Ha) as [F S]. rewrite Li in S. rewrite indicator_matvec in F by auto. rewrite indicator_matvec in S by auto.
  split; [|split; [exact Hw|]].
  - split; [exact La|]. split; [exact F|exact S].
  - intros al' (La' & F' & S'). assert (M' : meets_problem (tars_problem (indicator ys (unique ys)) (length (unique ys))) al').
    { apply tars_meets; auto; rewrite indicator_matvec by auto; [exact F'|]. rewrite Li. exact S'. }
    specialize (Hopt al' ltac:(congruence) M'). rewrite !(tars_cost_mmd Row row0 D phi lkern kern inv reg Hk Xs Xt ys LXs Ny NXt) in Hopt by auto.
    fold m in Hopt. unfold after. rewrite La'.
    assert (P : (0 < INR m)%R) by now apply nonempty_len.
    assert (Q0 : (0 <= msum (length (unique ys)) (fun a => nth a al 0 * nth a al 0))%R) by (apply msum_nonneg; intros i _; apply Rle_0_sqr).
    set (q := msum (length (unique ys)) (fun a => nth a al 0 * nth a al 0)%R) in *.
    set (q' := msum (length (unique ys)) (fun a => nth a al' 0 * nth a al' 0)%R) in *.
    match type of Hopt with (_ * (?A - ?C) + _ <= _ * (?B - _) + _)%R => set (a := A) in *; set (b := B) in *; set (c := C) in * end.
    assert (N2 : (0 < INR m * INR m)%R) by now apply Rmult_lt_0_compat.
    apply (Rmult_le_reg_l (INR m * INR m / 2)); [lra|].
    replace (INR m * INR m / 2 * (b + / 1000000000000 / (INR m * INR m) * q'))%R with (INR m * INR m / 2 * b + / 2 * / 1000000000000 * q')%R by (field; lra).
    assert (0 < / 1000000000000)%R by lra. nra.
Qed.

(** ** Concrete cases. The solvers below answer with a fixed point whenever it is a minimiser, and fail otherwise, so they meet the contract. *)
Definition guarded (w : list R) : scipy_problem -> (list R -> res R) -> list R -> res (list R * R) := fun p F _ =>
  if ClassicalDedekindReals.sig_not_dec (meets_problem p w /\ forall x' a b, meets_problem p x' -> F w = Ok a -> F x' = Ok b -> (a <= b)%R)
  then Ok (w, 0%R) else Err ValueError.
Lemma guarded_minimises w : minimises (guarded w).
Proof.
  intros p F x0 x v H. unfold guarded in H. destruct (ClassicalDedekindReals.sig_not_dec _) as [N|N]; [|discriminate]. injection H as <- <-. now apply NNPP.
Qed.
Lemma line_kernel : kernel_of 1 (fun (x : R) (_ : nat) => x) Rmult.
Proof. intros x y. cbn. ring. Qed.
(** Sources 1 and 2, target 2: the weight is moved to the second source, and the discrepancy falls from 1/4 to 0. *)
Example C177_ex_scipy : kmm_fit R (guarded [0; 2]%R) Rmult 1000 (Some (1/2)%R) 100 "scipy" [1; 2; 2]%R (SDArr [1; 1; -2]%Z) = Ok ([0; 2]%R, [1; 2]%R) /\
  mmd2 1 (fun (x : R) (_ : nat) => x) [0; 2]%R [1; 2]%R [2]%R = 0%R /\ mmd2 1 (fun (x : R) (_ : nat) => x) [1; 1]%R [1; 2]%R [2]%R = (1/4)%R.
Proof.
  assert (Z0 : mmd2 1 (fun (x : R) (_ : nat) => x) [0; 2]%R [1; 2]%R [2]%R = 0%R) by (unfold mmd2, weighted, Rsqr; cbn; lra).
  split; [|split; [exact Z0|unfold mmd2, weighted, Rsqr; cbn; lra]].
  unfold kmm_fit. cbn -[kmm_optim kernel_matrix]. change [1; 2]%R with ([1; 2]%R : list R).
  assert (E : kmm_optim R (guarded [0; 2]%R) Rmult 1000 (Some (1/2)%R) 100 "scipy" [1; 2]%R [2]%R = Ok [0; 2]%R).
  { unfold kmm_optim, qp_solve. change (String.eqb "scipy" "scipy") with true. cbv iota. unfold guarded. destruct (ClassicalDedekindReals.sig_not_dec _) as [N|N]; [reflexivity|].
    exfalso. apply N. clear N.
    split.
    - apply (kmm_meets 1000 (1/2) 2). split; [reflexivity|]. split; [repeat constructor; lra|cbn; lra].
    - intros x' a b M Ha Hb. apply (kmm_meets 1000 (1/2) 2) in M as (Lx & _ & _).
      rewrite (qp_func_total 2) in Ha by (reflexivity || apply (ker_square Rmult [1; 2]%R)).
      rewrite (qp_func_total 2) in Hb by (reflexivity || exact Lx || apply (ker_square Rmult [1; 2]%R)).
      injection Ha as <-. injection Hb as <-. 
      pose proof (fun w => kmm_obj 1 _ Rmult line_kernel [1; 2]%R [2]%R w ltac:(easy) ltac:(easy)) as O.
      match goal with |- (?A <= ?B)%R =>
        assert (EA : A = (INR 2 * INR 2 / 2 * (mmd2 1 (fun (x : R) (_ : nat) => x) [0; 2]%R [1; 2]%R [2]%R - target_norm2 1 (fun (x : R) (_ : nat) => x) [2]%R))%R) by exact (O [0; 2]%R eq_refl);
        assert (EB : B = (INR 2 * INR 2 / 2 * (mmd2 1 (fun (x : R) (_ : nat) => x) x' [1; 2]%R [2]%R - target_norm2 1 (fun (x : R) (_ : nat) => x) [2]%R))%R) by exact (O x' Lx);
        rewrite EA, EB; clear EA EB O end. rewrite Z0.
      assert (0 <= mmd2 1 (fun (x : R) (_ : nat) => x) x' [1; 2]%R [2]%R)%R by (unfold mmd2; apply msum_nonneg; intros; apply Rle_0_sqr).
      set (q := mmd2 _ _ x' _ _) in *. set (t := target_norm2 _ _ _). clearbody q t. change (INR 2) with (1 + 1)%R. lra. }
  rewrite E. reflexivity.
Qed.

(** Samples of two kinds with features 1 and 3; one source of the first kind, one target of the second. *)
Definition kind_feature (b : bool) (_ : nat) : R := if b then 1%R else 3%R.
Definition kind_kernel (x y : bool) : R := (kind_feature x 0 * kind_feature y 0)%R.
Example C177_ex_frank_wolfe : forall slsqp, exists w,
  kernel_of 1 kind_feature kind_kernel /\ (forall x, (kind_kernel x x <= 9)%R) /\
  kmm_fit bool slsqp kind_kernel 1000 None 1 "frank-wolfe" [true; false] (SDArr [1; -2]%Z) = Ok (w, [true]).
Proof.
  intros slsqp. assert (H : exists w, kmm_fit bool slsqp kind_kernel 1000 None 1 "frank-wolfe" [true; false] (SDArr [1; -2]%Z) = Ok (w, [true])).
  { unfold kmm_fit. cbn -[kmm_optim]. unfold kmm_optim, kmm_eps. cbn -[qp_solve sqrt kind_kernel].
    rewrite sqrt_1. unfold qp_solve.
    change (String.eqb "frank-wolfe" "scipy") with false. change (String.eqb "frank-wolfe" "frank-wolfe") with true. cbv iota.
    unfold qp_solve_fw, fw_validate. cbn -[frank_wolfe allclose Rltb kind_kernel].
    replace (allclose [1]%R [(- - (1))]%R) with (Ok true).
    2:{ unfold allclose, np_map2. cbn -[Rleb]. rewrite (proj2 (Rleb_iff _ _)); auto.
        replace (1 - - - (1))%R with 0%R by ring. rewrite Rabs_R0. pose proof (Rabs_pos (- - (1))). lra. }
    cbn -[frank_wolfe Rltb kind_kernel]. rewrite (proj2 (Rltb_false _ _)) by lra. cbn -[frank_wolfe kind_kernel].
    unfold frank_wolfe, fw_loop, fw_step, fw_vertex, qp_jac, np_map2. cbn -[Rltb Rleb INR mean kind_kernel].
    unfold mean, kind_kernel, kind_feature. cbn -[Rleb].
    match goal with |- context [Rleb 0 ?b] => replace b with (-3)%R by field end. decide_R. cbn. eexists. reflexivity. }
  destruct H as [w H]. exists w. split; [|split; [|exact H]].
  - intros [] []; unfold kind_kernel, kind_feature; cbn; lra.
  - intros []; unfold kind_kernel, kind_feature; cbn; lra.
Qed.

(** Sources 1 (class 5) and 2 (class 7); the class weights 1/2 and 1 are optimal for the target chosen here. *)
Definition name_kernel (a b : Z) : R := if Z.eqb a b then 1%R else 0%R.
Definition diag_inv (_ : nat) (A : mat) : mat := fun i j => if i =? j then (/ A i j)%R else 0%R.
Definition ex_target : R := ((5/4 + / 1000000000000) / 2)%R.
Definition ex_cost := tars_cost R 0%R name_kernel Rmult diag_inv 1%R.
Definition ex_solve (Xs Xt : list R) (ys : list Z) (p : scipy_problem) : res (list R) :=
  if ClassicalDedekindReals.sig_not_dec (meets_problem p [1/2; 1]%R /\ forall a', length a' = 2 -> meets_problem p a' -> (ex_cost Xs Xt ys [1/2; 1] <= ex_cost Xs Xt ys a')%R)
  then Ok [1/2; 1]%R else Err ValueError.
Example C177_ex_mmdtars :
  (forall Xs Xt ys p a, ex_solve Xs Xt ys p = Ok a -> meets_problem p a /\ forall a', length a' = length a -> meets_problem p a' ->
     (ex_cost Xs Xt ys a <= ex_cost Xs Xt ys a')%R) /\
  exists st, tars_fit R ex_solve [1; 2; ex_target]%R [5; 7; 0]%Z (SDArr [1; 1; -2]%Z) = Ok st /\ ts_alpha R st = [1/2; 1]%R /\
    smoothed (tars_omega name_kernel diag_inv 1 [5; 7]%Z) 2 [1/2; 1]%R = [1/4; 1/2]%R.
Proof.
  split.
  - intros Xs Xt ys p a H. unfold ex_solve in H. destruct (ClassicalDedekindReals.sig_not_dec _) as [N|N]; [|discriminate]. injection H as <-. now apply NNPP.
  - assert (E : ex_solve [1; 2]%R [ex_target] [5; 7]%Z (tars_problem (indicator [5; 7]%Z (unique [5; 7]%Z)) 2) = Ok [1/2; 1]%R).
    { unfold ex_solve. destruct (ClassicalDedekindReals.sig_not_dec _) as [N|N]; [reflexivity|]. exfalso. apply N. clear N. split.
      - assert (W : matvec (indicator [5; 7]%Z (unique [5; 7]%Z)) [1/2; 1]%R = [1/2; 1]%R).
        { unfold matvec, dot. cbn. repeat apply (f_equal2 (@cons R)); try reflexivity; lra. }
        apply tars_meets; [repeat constructor|reflexivity| |]; rewrite W; [repeat constructor; lra|].
        change (length (indicator [5; 7]%Z (unique [5; 7]%Z))) with 2. change (INR 2) with (1 + 1)%R. set (s := sqrt (1 + 1)).
        assert (S1 : (1 <= s)%R) by (unfold s; rewrite <- sqrt_1 at 1; apply sqrt_le_1; lra).
        assert (S2 : (s <= 2)%R) by (unfold s; rewrite <- (sqrt_square 2) by lra; apply sqrt_le_1; lra).
        assert (I : (/ (4 * s) >= / 8)%R) by (apply Rle_ge, Rinv_le_contravar; lra).
        unfold Rdiv. cbn [vsum]. lra.
      - set (e := (/ 1000000000000)%R).
        assert (C : forall a b, ex_cost [1; 2]%R [ex_target] [5; 7]%Z [a; b] = (1 / 2 * ((a / 2 + b) * (a / 2 + b) + e * (a * a + b * b)) - (5 / 4 + e) * (a / 2 + b))%R).
        { intros a b. unfold ex_cost, tars_cost, tars_P, tars_q, tars_M, tars_A, tars_K, tars_R, tars_omega, tars_L, mmul, mT, diag_inv, delta, name_kernel, ex_target. cbn. fold e.
          field. }
        intros [|a [|b [|]]] L; try discriminate. intros _. rewrite !C. assert (0 < e)%R by (unfold e; lra).
        apply Rminus_le. match goal with |- (?A - ?B <= 0)%R =>
          replace (A - B)%R with (- (1 / 2 * (Rsqr ((a - 1/2) / 2 + (b - 1)) + e * (Rsqr (a - 1/2) + Rsqr (b - 1)))))%R by (unfold Rsqr; field) end.
        pose proof (Rle_0_sqr ((a - 1/2) / 2 + (b - 1))). pose proof (Rle_0_sqr (a - 1/2)). pose proof (Rle_0_sqr (b - 1)). nra. }
    eexists. split; [|split].
    + unfold tars_fit. cbn -[ex_solve tars_problem indicator unique ex_target]. change (length (unique [5; 7]%Z)) with 2. rewrite E. reflexivity.
    + reflexivity.
    + unfold smoothed, tars_omega, tars_L, mmul, diag_inv, delta, name_kernel. cbn. repeat apply (f_equal2 (@cons R)); try reflexivity; field.
Qed.
