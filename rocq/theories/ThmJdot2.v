(** C178 with a positive thr_weights: the weights that are left out bound how far a loss can rise. *)
From Coq Require Import List ZArith Bool Arith Lia Reals Lra Psatz Classical_Prop.
From Verif Require Import Np NpFacts Labels Spec UtilsModel SelectModel RVec RVecFacts OTModel OTSpec OTProofs OTProofs2 OTProofs3 ThmOT MapModel RMat ThmJdot.
Import ListNotations.
Local Open Scope nat_scope.
Local Open Scope list_scope.

(** No value is more than [eps] above the one before. *)
Definition nearly_descending (eps : R) (l : list R) : Prop := forall i, S i < length l -> (nth (S i) l 0 <= nth i l 0 + eps)%R.

Section Loop.
  Context {St : Type}.
  Variable step : nat -> St -> res (St * R * R).
  Variable tol : R.
  Variable n : nat.
  Variable P : nat -> St -> option R -> Prop.
  Variable low : Prop.
  Variable eps : R.
  Hypothesis Hstep : forall i s prev s' lot llab, P i s prev -> step i s = Ok (s', lot, llab) ->
    P (S i) s' (Some lot) /\ (forall p, prev = Some p -> (lot <= p + eps)%R) /\ (low -> (0 <= lot)%R).
  Lemma loop_nearly : forall k i s pot plab s' lots llabs w, P i s pot -> i + k = n -> jdot_loop step tol n k i s pot plab = Ok (s', lots, llabs, w) ->
    nearly_descending eps lots /\ (forall p, pot = Some p -> 0 < length lots -> (nth 0 lots 0 <= p + eps)%R) /\ (low -> Forall (fun x => 0 <= x)%R lots) /\
    (low -> (eps < tol)%R -> w = true -> 0 < k /\ 0 < length lots /\ (forall p, pot = Some p -> (INR k * tol <= p)%R) /\ (pot = None -> (INR (k - 1) * tol <= nth 0 lots 0)%R)).
  Proof.
    induction k as [|k IH]; intros i s pot plab s' lots llabs w HP E H; cbn [jdot_loop] in H.
    - injection H as <- <- <- <-. repeat split; auto; try easy; intros ? L; cbn in L; lia.
    - destruct (step i s) as [[[s1 lot] llab]|] eqn:Es; [|discriminate]. cbn [bind] in H. destruct (Hstep _ _ _ _ _ _ HP Es) as (P1 & D1 & B1).
      assert (Single : lots = [lot] -> w = false -> nearly_descending eps lots /\ (forall p, pot = Some p -> 0 < length lots -> (nth 0 lots 0 <= p + eps)%R) /\ (low -> Forall (fun x => 0 <= x)%R lots) /\
        (low -> (eps < tol)%R -> w = true -> 0 < S k /\ 0 < length lots /\ (forall p, pot = Some p -> (INR (S k) * tol <= p)%R) /\ (pot = None -> (INR (S k - 1) * tol <= nth 0 lots 0)%R))).
      { intros -> ->. repeat split; try discriminate.
        - intros j L. cbn in L. lia.
        - intros p Ep _. cbn. now apply D1.
        - intros Lo. constructor; auto. }
      destruct (small_change tol lot pot) eqn:S1; [injection H as <- <- <- <-; now apply Single|].
      assert (Dtol : (eps < tol)%R -> forall p, pot = Some p -> (lot <= p - tol)%R).
      { intros Ht p Ep. specialize (D1 p Ep). subst pot. unfold small_change in S1. apply Rltb_false in S1. unfold Rabs in S1. destruct (Rcase_abs (lot - p)); lra. }
      destruct (small_change tol llab plab); [injection H as <- <- <- <-; now apply Single|].
      destruct (i =? n - 1) eqn:En.
      + injection H as <- <- <- <-. apply Nat.eqb_eq in En. assert (k = 0) by lia. subst k. cbn [length nth]. repeat split.
        * intros j L. cbn in L. lia.
        * intros p Ep _. now apply D1.
        * intros Lo. constructor; auto.
        * lia.
        * lia.
        * intros p Ep. specialize (Dtol ltac:(assumption) p Ep). specialize (B1 ltac:(assumption)). cbn. lra.
        * intros _. specialize (B1 ltac:(assumption)). cbn. lra.
      + apply Nat.eqb_neq in En. destruct (jdot_loop step tol n k (S i) s1 (Some lot) (Some llab)) as [[[[s2 a] b] w2]|] eqn:El; [|discriminate].
        cbn [bind] in H. injection H as <- <- <- <-.
        assert (Ek : S i + k = n) by lia. destruct (IH _ _ _ _ _ _ _ _ P1 Ek El) as (I1 & I2 & I3 & I4). repeat split.
        * intros [|j] L; cbn [nth length] in *; [apply (I2 lot eq_refl); lia|apply I1; lia].
        * intros p Ep _. cbn. now apply D1.
        * intros Lo. constructor; auto.
        * lia.
        * cbn. lia.
        * intros p Ep. destruct (I4 ltac:(assumption) ltac:(assumption) ltac:(assumption)) as (_ & _ & Q & _). specialize (Q lot eq_refl). specialize (Dtol ltac:(assumption) p Ep). rewrite S_INR. lra.
        * intros _. destruct (I4 ltac:(assumption) ltac:(assumption) ltac:(assumption)) as (_ & _ & Q & _). specialize (Q lot eq_refl). replace (S k - 1) with k by lia. exact Q.
  Qed.
End Loop.

Lemma filter_parts {A} (p : A -> bool) (g : A -> R) : forall l, (vsum (map g (filter p l)) + vsum (map g (filter (fun x => negb (p x)) l)) = vsum (map g l))%R.
Proof. induction l as [|x l IH]; [cbn; lra|]. cbn [filter]. destruct (p x); cbn [negb map vsum]; lra. Qed.
Lemma vsum_between (l : list R) c : (forall x, In x l -> (0 <= x <= c)%R) -> (0 <= vsum l <= INR (length l) * c)%R.
Proof.
  induction l as [|x l IH]; intros Q; [cbn; lra|]. specialize (IH ltac:(intros; apply Q; now right)). pose proof (Q x (or_introl eq_refl)). cbn [length vsum]. rewrite S_INR. lra.
Qed.
Lemma filter_le {A} (p : A -> bool) : forall l, length (filter p l) <= length l.
Proof. induction l as [|x l IH]; cbn; [lia|]. destruct (p x); cbn; lia. Qed.
Lemma triples_length {X L} (labels : list L) : forall (Xt : list X) Yth, matrix (length Xt) (length labels) Yth -> length (all_triples Xt Yth labels) = length Xt * length labels.
Proof.
  induction Xt as [|x Xt IH]; intros [|row Yth] [L0 F]; try discriminate; [reflexivity|]. inversion F as [|? ? F1 F2]; subst.
  unfold all_triples in *. cbn [combine flat_map length]. rewrite app_length, IH by (split; [cbn in L0; lia|exact F2]). rewrite map_length, combine_length. cbn [snd]. rewrite F1, Nat.min_id. reflexivity.
Qed.

Section Classification.
  Context {Est Xrow : Type}.
  Variable solve : list (list R) -> list R -> list R -> res (list (list R) * R).
  Variable fit : list Xrow -> list Z -> list R -> res Est.
  Variable pred : Est -> list Xrow -> tgt_pred.
  Variable metric : jmetric.
  Variable score : Est -> Xrow -> list R.
  Variable H : (Xrow -> list R) -> Prop.
  Variable h0 : Xrow -> list R.
  Variable alpha : R.
  Variable Mf : list (list R).
  Variable ys : list Z.
  Variable Xt : list Xrow.
  Variable a b : list R.
  Hypothesis Hsolve : exact_ot solve.
  Hypothesis Hpred : forall est X, pred_matrix metric (pred est X) = Ok (map (score est) X).
  Hypothesis Hlen : forall h x, H h -> length (h x) = length (unique ys).
  Hypothesis Hfit : minimises_loss metric ys H score fit.
  Hypothesis Hh0 : H h0.
  Hypothesis Hten : forall x c, In c ys -> (class_loss metric ys c (h0 x) <= 10)%R.
  Variables (B thr bm : R).
  Hypothesis Hbd : forall h x c, H h -> In c ys -> (0 <= class_loss metric ys c (h x) <= B)%R.
  Hypothesis Hthr : (0 <= thr)%R.
  Hypothesis Hbm : forall j, (nth j b 0 <= bm)%R.
  Hypothesis Ha : (0 <= alpha)%R.
  Hypothesis Hxt : Xt <> [].
  Hypothesis HM : matrix (length a) (length b) Mf.
  Hypothesis Hys : length ys = length a.
  Hypothesis Hb : length Xt = length b.

  Notation label_loss := (ThmJdot.label_loss metric ys Xt).
  Notation total := (ThmJdot.total alpha Mf).
  Definition slack : R := (alpha * (B * INR (length (unique ys)) * (thr * (INR (length Xt) * bm))))%R.

  (** The loss that the classifier minimises is, up to the number of targets, the label cost of the plan. *)
  Lemma plan_loss T h Xh yh wh : coupling a b T -> H h ->
    jdot_data Xt (label_plan T (map (onehot (unique ys)) ys) (length Xt) (length (unique ys))) (unique ys) thr = Ok (Xh, yh, wh) ->
    exists d, (0 <= d <= INR (length Xt) * (B * INR (length (unique ys)) * (thr * (INR (length Xt) * bm))))%R /\
      (weighted_loss metric ys Xh yh wh h + d = INR (length Xt) * spent (length a) (length b) (label_loss h) T)%R.
  Proof.
    intros CT Hh E. assert (LT : length T = length ys) by (destruct CT as ((L & _) & _); congruence).
    set (W := label_plan T (map (onehot (unique ys)) ys) (length Xt) (length (unique ys))) in *.
    destruct (C92_class_weights T ys (length Xt) LT) as [MW _]. fold W in MW.
    assert (EW : forall j k, j < length Xt -> k < length (unique ys) ->
       at2 W j k = (INR (length Xt) * msum (length a) (fun i => at2 T i j * (if (nth i ys 0 =? nth k (unique ys) 0)%Z then 1 else 0)))%R).
    { intros j k Hj Hk. unfold at2 at 1, W, label_plan. rewrite !nth_map_seq by auto. rewrite Rmult_comm. f_equal.
      rewrite dot_at by (unfold col; rewrite !map_length; congruence). unfold col at 1. rewrite map_length. replace (length T) with (length a) by congruence.
      apply msum_ext. intros i Hi. unfold col. rewrite (map_nth' _ []) by lia. rewrite (map_nth' _ []) by (rewrite map_length; lia).
      rewrite (map_nth' _ 0%Z) by lia. unfold onehot. now rewrite (map_nth' _ 0%Z) by auto. }
    assert (PW : forall j k, j < length Xt -> k < length (unique ys) -> (0 <= at2 W j k)%R).
    { intros j k Hj Hk. rewrite EW by auto. apply Rmult_le_pos; [apply pos_INR|]. apply msum_nonneg. intros i Hi.
      assert (0 <= at2 T i j)%R by (apply CT; auto; lia). destruct (_ =? _)%Z; lra. }
    assert (exists m, is_max m (concat W)) as [m Hm].
    { unfold jdot_data in E. apply bind_ok in E as [m [Em _]]. exists m. now apply np_max_ok. }
    rewrite (jdot_data_ok _ _ _ _ m Hxt MW Hm) in E. cbv zeta in E. injection E as <- <- <-.
    assert (LE : forall j k, j < length Xt -> k < length (unique ys) -> (at2 W j k <= INR (length Xt) * bm)%R).
    { intros j k Hj Hk. rewrite EW by auto. apply Rmult_le_compat_l; [apply pos_INR|]. apply Rle_trans with (msum (length a) (fun i => at2 T i j)).
      - apply msum_le. intros i Hi. assert (0 <= at2 T i j)%R by (apply CT; auto; lia). destruct (_ =? _)%Z; lra.
      - destruct CT as (_ & _ & _ & Cb). rewrite Cb by lia. apply Hbm. }
    assert (In_W : forall x c w, In (x, c, w) (all_triples Xt W (unique ys)) -> (0 <= w <= INR (length Xt) * bm)%R /\ In c ys).
    { intros x c w I. apply C55_triples in I as (j & k & row & Ix & Ic & Ir & Iw); [|exact MW].
      assert (Ew : w = at2 W j k) by (unfold at2; rewrite (nth_error_nth _ _ _ Ir); now rewrite (nth_error_nth _ _ _ Iw)).
      assert (j < length Xt) by (apply nth_error_Some; congruence). assert (k < length (unique ys)) by (apply nth_error_Some; congruence).
      subst w. split; [split; [now apply PW|now apply LE]|]. apply nth_error_In in Ic. now apply unique_In. }
    assert (Lm : (m <= INR (length Xt) * bm)%R).
    { destruct Hm as [Im _]. apply in_concat in Im as (row & Ir & Ik). apply (In_nth _ _ []) in Ir as (j & Hj & <-). apply (In_nth _ _ 0%R) in Ik as (k & Hk & <-).
      destruct MW as [M1 M2]. rewrite M1 in Hj. rewrite (row_len (length Xt) (length (unique ys)) W j (conj M1 M2) Hj) in Hk. exact (LE j k Hj Hk). }
    set (g := fun t : Xrow * Z * R => (snd t * class_loss metric ys (snd (fst t)) (h (fst (fst t))))%R).
    set (pr := fun t : Xrow * Z * R => Rltb (thr * m) (snd t)).
    exists (vsum (map g (filter (fun t => negb (pr t)) (all_triples Xt W (unique ys))))). split.
    { destruct (vsum_between (map g (filter (fun t => negb (pr t)) (all_triples Xt W (unique ys)))) (thr * (INR (length Xt) * bm) * B)%R) as [V1 V2].
      { intros v Iv. apply in_map_iff in Iv as ([[x c] w] & <- & It). apply filter_In in It as [It Ip]. apply In_W in It as [[W1 W2] Ic]. unfold pr in Ip. cbn [snd] in Ip.
        apply negb_true_iff, Rltb_false in Ip. unfold g. cbn [fst snd]. destruct (Hbd h x c Hh Ic) as [B1 B2]. split; [now apply Rmult_le_pos|].
        apply Rmult_le_compat; auto. apply Rle_trans with (thr * m)%R; [exact Ip|]. now apply Rmult_le_compat_l. }
      split; [exact V1|]. eapply Rle_trans; [exact V2|]. rewrite map_length.
      assert (Q : (0 <= thr * (INR (length Xt) * bm) * B)%R).
      { destruct Xt as [|x0 X0] eqn:EX; [easy|]. rewrite <- EX in *. assert (0 <= bm)%R by (pose proof (Hbm (length b)) as Q; rewrite nth_overflow in Q by lia; exact Q).
        destruct ys as [|y0 Y0] eqn:EY; [exfalso; destruct MW as [_ MW]; unfold W in Hm; destruct Hm as [Hm _]; apply in_concat in Hm as (row & Ir & Ik); rewrite Forall_forall in MW; apply MW in Ir; cbn in Ir; destruct row; [destruct Ik|discriminate]|].
        rewrite <- EY in *. destruct (Hbd h x0 y0 Hh ltac:(rewrite EY; now left)). apply Rmult_le_pos; [|lra]. apply Rmult_le_pos; [exact Hthr|]. apply Rmult_le_pos; [apply pos_INR|assumption]. }
      apply Rle_trans with (INR (length Xt * length (unique ys)) * (thr * (INR (length Xt) * bm) * B))%R.
      - apply Rmult_le_compat_r; [exact Q|]. apply le_INR. eapply Nat.le_trans; [apply filter_le|]. now rewrite (triples_length (unique ys) Xt W MW).
      - rewrite mult_INR. apply Req_le. ring. }
    unfold weighted_loss. rewrite map2_combine_map. change (map _ (filter (fun t => Rltb (thr * m) (snd t)) (all_triples Xt W (unique ys)))) with (map g (filter pr (all_triples Xt W (unique ys)))).
    rewrite filter_parts. unfold g.
    rewrite (triples_sum (class_loss metric ys) h (unique ys) Xt W MW).
    unfold spent. rewrite (msum_swap (length a) (length b)), <- Hb. rewrite <- msum_scal. apply msum_ext. intros j Hj.
    rewrite (msum_ext (length (unique ys)) _ (fun k => INR (length Xt) * msum (length a) (fun i => at2 T i j * ((if (nth i ys 0 =? nth k (unique ys) 0)%Z then 1 else 0) * class_loss metric ys (nth k (unique ys) 0%Z) (nth j (map h Xt) []))))%R).
    2:{ intros k Hk. rewrite EW by auto. rewrite Rmult_assoc. f_equal. rewrite <- msum_scal_r. apply msum_ext. intros i _. ring. }
    rewrite msum_scal. f_equal. rewrite msum_swap. apply msum_ext. intros i Hi. rewrite msum_scal, Rmult_comm. f_equal.
    unfold ThmJdot.label_loss. apply (pick_class (unique ys) (fun c => class_loss metric ys c (nth j (map h Xt) []))); [apply unique_NoDup|].
    apply unique_In, nth_In. lia.
  Qed.

  Definition P_cls (i : nat) (s : list (list R) * option (Est * list (list R))) (prev : option R) : Prop :=
    match i with
    | 0 => prev = None /\ fst s = initial_cost (length ys) (length Xt)
    | S _ => exists h p T, H h /\ matrix (length a) (length b) (fst s) /\ (forall i j, i < length a -> j < length b -> at2 (fst s) i j = label_loss h i j) /\
               prev = Some p /\ coupling a b T /\ (spent (length a) (length b) (total (label_loss h)) T <= p + slack)%R
    end.
  Lemma initial_matrix : matrix (length a) (length b) (initial_cost (length ys) (length Xt)).
  Proof.
    unfold initial_cost. split; [rewrite repeat_length; congruence|]. apply Forall_forall. intros r Hr. apply repeat_spec in Hr. subst r. now rewrite repeat_length.
  Qed.
  Lemma initial_at i j : i < length a -> j < length b -> at2 (initial_cost (length ys) (length Xt)) i j = 10%R.
  Proof.
    intros Hi Hj. unfold at2, initial_cost. rewrite (repeat_nth_in (repeat 10%R (length Xt))) by lia. apply repeat_nth_in. lia.
  Qed.
  Lemma step_cls i s prev s' lot llab : P_cls i s prev -> cls_step solve fit pred metric alpha thr Mf ys Xt a b i s = Ok (s', lot, llab) ->
    P_cls (S i) s' (Some lot) /\ (forall p, prev = Some p -> (lot <= p + slack)%R) /\
    (((alpha <= 1)%R /\ (forall i j, i < length a -> j < length b -> (0 <= at2 Mf i j)%R)) /\ (forall h x c, H h -> In c ys -> (0 <= class_loss metric ys c (h x))%R) -> (0 <= lot)%R).
  Proof.
    intros HP Hs. unfold cls_step in Hs. apply bind_ok in Hs as [[T v] [Hsol Hs]]. apply bind_ok in Hs as [[[Xh yh] wh] [Hd Hs]].
    apply bind_ok in Hs as [est [Hft Hs]]. apply bind_ok in Hs as [Ml' [Hcc Hs]]. apply bind_ok in Hs as [l [_ Hs]]. injection Hs as <- <- _.
    (** the label cost used by the plan, and a scoring function that is not worse *)
    assert (G : matrix (length a) (length b) (fst s) /\ exists h, H h /\ (forall i j, i < length a -> j < length b -> (label_loss h i j <= at2 (fst s) i j)%R) /\
      ((forall h x c, H h -> In c ys -> (0 <= class_loss metric ys c (h x))%R) -> forall i j, i < length a -> j < length b -> (0 <= at2 (fst s) i j)%R)).
    { destruct i as [|i].
      - destruct HP as [_ E]. rewrite E. split; [apply initial_matrix|]. exists h0. split; [exact Hh0|]. split.
        + intros i j Hi Hj. rewrite initial_at by auto. destruct Xt as [|x0 X0] eqn:EX; [easy|]. rewrite <- EX in *. unfold ThmJdot.label_loss.
          rewrite (map_nth' _ x0) by lia. apply Hten, nth_In. lia.
        + intros _ i j Hi Hj. rewrite initial_at by auto. lra.
      - destruct HP as (h & p & T' & Hh & Ms & Eq & _). split; [exact Ms|]. exists h. split; [exact Hh|]. split.
        + intros i0 j Hi Hj. rewrite Eq by auto. lra.
        + intros Pos i0 j Hi Hj. rewrite Eq by auto. destruct Xt as [|x0 X0] eqn:EX; [easy|]. rewrite <- EX in *. unfold ThmJdot.label_loss.
          rewrite (map_nth' _ x0) by lia. apply Pos; [exact Hh|]. apply nth_In. lia. }
    destruct G as (Ms & h & Hh & Better & Pos0).
    apply Hsolve in Hsol as (CT & Ev & Opt); [|now apply cost_matrix].
    assert (Elot : (if i =? 0 then (v + alpha * inner_mat (fst s) T)%R else v) = spent (length a) (length b) (total (at2 (fst s))) T).
    { unfold ThmJdot.total. destruct i as [|i]; cbn [Nat.eqb].
      - rewrite (inner_at (length a) (length b)) by (auto; apply CT). change (msum _ _) with (spent (length a) (length b) (at2 (fst s)) T).
        rewrite Ev, (spent_split _ _ alpha). f_equal. apply spent_ext. intros i0 j0 Hi0 Hj0. rewrite (cost_at _ _ _ _ (length a) (length b)) by auto. cbn [Nat.ltb Nat.leb]. ring.
      - rewrite Ev. apply spent_ext. intros i0 j0 Hi0 Hj0. rewrite (cost_at _ _ _ _ (length a) (length b)) by auto. reflexivity. }
    rewrite Elot. apply Hfit in Hft as [He Best]. split; [|split].
    - exists (score est), (spent (length a) (length b) (total (at2 (fst s))) T), T. cbn [fst].
      assert (FP : Forall (fun f => length f = length (unique ys)) (map (score est) Xt)) by (apply Forall_map, Forall_forall; intros x _; now apply Hlen).
      rewrite (class_cost_entry metric ys _ _ (Hpred est Xt) FP) in Hcc. injection Hcc as <-.
      split; [exact He|]. split; [|split; [|split; [reflexivity|split; [exact CT|]]]].
      + split; [rewrite map_length; congruence|]. apply Forall_map, Forall_forall. intros y _. now rewrite !map_length.
      + intros i0 j Hi Hj. unfold at2, ThmJdot.label_loss. rewrite (map_nth' _ 0%Z) by lia. rewrite (map_nth' _ []) by (rewrite map_length; lia).
        apply row_loss_class; [apply nth_In; lia|]. rewrite Forall_forall in FP. apply FP, nth_In. rewrite map_length. lia.
      + specialize (Best h Hh). destruct (plan_loss T (score est) Xh yh wh CT He Hd) as (d1 & D1 & E1). destruct (plan_loss T h Xh yh wh CT Hh Hd) as (d2 & D2 & E2).
        assert (P : (0 < INR (length Xt))%R) by (destruct Xt; [easy|apply lt_0_INR; cbn; lia]).
        set (c := (B * INR (length (unique ys)) * (thr * (INR (length Xt) * bm)))%R) in *.
        assert (Best' : (spent (length a) (length b) (label_loss (score est)) T <= spent (length a) (length b) (label_loss h) T + c)%R).
        { apply (Rmult_le_reg_l (INR (length Xt))); [exact P|]. rewrite Rmult_plus_distr_l. lra. }
        assert (Best2 : (spent (length a) (length b) (label_loss h) T <= spent (length a) (length b) (at2 (fst s)) T)%R).
        { unfold spent. apply msum_le. intros i0 Hi0. apply msum_le. intros j0 Hj0. apply Rmult_le_compat_r; [apply CT; auto|now apply Better]. }
        unfold ThmJdot.total, slack. fold c. rewrite !spent_split, Rplus_assoc. apply Rplus_le_compat_l. rewrite <- Rmult_plus_distr_l. apply Rmult_le_compat_l; [exact Ha|]. lra.
    - intros p Ep. destruct i as [|i]; [destruct HP as [HP _]; congruence|]. destruct HP as (h' & p' & T' & _ & _ & Eq & Ep' & CT' & Bnd). assert (p' = p) by congruence. subst p'.
      cbn [Nat.eqb] in Elot. rewrite <- Elot. eapply Rle_trans; [apply (Opt T' CT')|]. eapply Rle_trans; [|exact Bnd]. apply Req_le, spent_ext. intros i0 j0 Hi0 Hj0.
      rewrite (cost_at _ _ _ _ (length a) (length b)) by auto. cbn [Nat.ltb Nat.leb]. unfold ThmJdot.total. now rewrite Eq by auto.
    - intros [[A1 N] Pos]. apply spent_nonneg; [exact CT|]. intros i0 j0 Hi0 Hj0. unfold ThmJdot.total. apply Rplus_le_le_0_compat; apply Rmult_le_pos; auto. lra.
  Qed.
End Classification.

Theorem C178_threshold : forall Est Xrow solve (fit : list Xrow -> list Z -> list R -> res Est) (pred : Est -> list Xrow -> tgt_pred) metric
    (score : Est -> Xrow -> list R) (H : (Xrow -> list R) -> Prop) h0 alpha thr B tol n dist ys Xt ws est lot llab T w,
  exact_ot solve -> (forall est X, pred_matrix metric (pred est X) = Ok (map (score est) X)) -> (forall h x, H h -> length (h x) = length (unique ys)) ->
  minimises_loss metric ys H score fit -> H h0 -> (forall x c, In c ys -> (class_loss metric ys c (h0 x) <= 10)%R) -> (0 <= alpha)%R ->
  Xt <> [] -> matrix (length ys) (length Xt) dist -> (forall l, ws = Some l -> length l = length ys) ->
  (forall h x c, H h -> In c ys -> (0 <= class_loss metric ys c (h x) <= B)%R) -> (0 <= thr)%R ->
  solve_jdot_classification solve fit pred metric alpha thr tol n dist ys Xt ws None = Ok (est, lot, llab, T, w) ->
  let eps := (alpha * B * INR (length (unique ys)) * thr)%R in
  nearly_descending eps lot /\
  ((alpha <= 1)%R -> Forall (Forall (fun x => 0 <= x)%R) dist -> (0 < mean (concat dist))%R ->
   Forall (fun x => 0 <= x)%R lot /\ ((eps < tol)%R -> w = true -> (INR (n - 1) * tol <= nth 0 lot 0)%R)).
Proof.
  intros Est Xrow solve fit pred metric score H h0 alpha thr B tol n dist ys Xt ws est lot llab T w Hs Hp HL Hf H0 Ht Ha Nx HM Hws HB Hthr E eps.
  unfold solve_jdot_classification in E. apply bind_ok in E as [[[[s lo] ll] wa] [El E]]. cbn in E.
  destruct (snd s) as [[e T0]|]; [|discriminate]. injection E as <- <- <- <- <-.
  set (a := marginal (length ys) ws) in *. set (b := marginal (length Xt) None) in *.
  assert (La : length a = length ys) by now apply marginal_len. assert (Lb : length b = length Xt) by (apply marginal_len; discriminate).
  assert (Pn : (0 < INR (length Xt))%R) by (destruct Xt; [easy|apply lt_0_INR; cbn; lia]).
  assert (Hb : forall j, (nth j b 0 <= 1 / INR (length Xt))%R).
  { intros j. unfold b. cbn [marginal]. destruct (Nat.lt_ge_cases j (length Xt)) as [Hj|Hj]; [rewrite repeat_nth_in by exact Hj; lra|].
    rewrite nth_overflow by (rewrite repeat_length; exact Hj). apply Rlt_le, Rdiv_lt_0_compat; lra. }
  assert (Es : slack alpha ys Xt B thr (1 / INR (length Xt)) = eps) by (unfold slack, eps; field; lra).
  pose proof (fun i s prev s' l1 l2 => step_cls solve fit pred metric score H h0 alpha (norm_mean dist) ys Xt a b Hs Hp HL Hf H0 Ht B thr (1 / INR (length Xt))%R HB Hthr Hb Ha Nx
     ltac:(rewrite La, Lb; now apply norm_matrix) (eq_sym La) (eq_sym Lb) i s prev s' l1 l2) as Step.
  rewrite Es in Step.
  assert (Init : P_cls metric H alpha (norm_mean dist) ys Xt a b B thr (1 / INR (length Xt))%R 0 (initial_cost (length ys) (length Xt), @None (Est * list (list R))) None) by (split; reflexivity).
  destruct (loop_nearly _ tol n _ _ eps Step n 0 _ None None _ _ _ _ Init eq_refl El) as (D1 & _ & D3 & D4).
  split; [exact D1|]. intros A1 Fd Pd.
  assert (Low : (((alpha <= 1)%R /\ (forall i j, i < length a -> j < length b -> (0 <= at2 (norm_mean dist) i j)%R)) /\ (forall h x c, H h -> In c ys -> (0 <= class_loss metric ys c (h x))%R))).
  { split; [|intros h x c Hh Hc; now apply HB]. split; [exact A1|]. intros i j Hi Hj. apply (norm_pos (length ys) (length Xt)); auto; lia. }
  split; [now apply D3|]. intros Hlt Hw. destruct (D4 Low Hlt Hw) as (_ & _ & _ & Q). now apply Q.
Qed.

(** The classifier of C178_ex_classification with the default threshold: losses between 0 and 4, so that no loss rises by more than 4/1000000, less than the tolerance. *)
Lemma half_data' : jdot_data [tt] [[1 / 2; 1 / 2]]%R [3; 7]%Z (1/1000000) = Ok ([tt; tt], [3; 7]%Z, [1 / 2; 1 / 2]%R).
Proof.
  rewrite (jdot_data_ok [tt] [[1 / 2; 1 / 2]]%R [3; 7]%Z (1/1000000) (1 / 2)%R); [|discriminate|split; [reflexivity|repeat constructor]|split; [now left|repeat constructor; lra]].
  unfold all_triples. cbn [combine flat_map map app filter fst snd]. cbv zeta. cbn [filter snd].
  assert (E : Rltb (1/1000000 * (1 / 2)) (1 / 2) = true) by (apply Rltb_iff; lra). rewrite E. reflexivity.
Qed.
Lemma half_step' i Mf s : exists e M l k, cls_step one_target better (fun e X => PDecision (map (side e) X)) MHinge (1/2) (1/1000000) Mf [7; 3]%Z [tt] [1 / 2; 1 / 2]%R [1]%R i s = Ok ((M, Some (e, [[1 / 2]; [1 / 2]]%R)), l, k).
Proof.
  unfold cls_step. change (unique [7; 3]%Z) with [3; 7]%Z. change (length [tt]) with 1. change (length [3; 7]%Z) with 2. rewrite one_target_half. cbn [bind].
  rewrite half_plan, half_data'. cbn [bind]. unfold better. cbn [bind]. destruct (Rle_dec _ _); cbn -[row_loss spent inner_mat]; repeat eexists; reflexivity.
Qed.
Example C178_ex_threshold :
  (forall h x c, (h = side true \/ h = side false) -> In c [7; 3]%Z -> (0 <= class_loss MHinge [7; 3]%Z c (h x) <= 4)%R) /\
  (1/2 * 4 * INR (length (unique [7; 3]%Z)) * (1/1000000) < 1/10)%R /\
  exists est lot llab T w, solve_jdot_classification one_target better (fun e X => PDecision (map (side e) X)) MHinge (1/2) (1/1000000) (1/10) 2 [[1]; [4]]%R [7; 3]%Z [tt] None None = Ok (est, lot, llab, T, w).
Proof.
  split; [|split].
  - intros h [] c [-> | ->] [<-|[<-|[]]]; unfold class_loss, hinge_cost; cbn; unfold Rmax; repeat destruct (Rle_dec _ _); lra.
  - cbn. lra.
  - unfold solve_jdot_classification. change (length [7; 3]%Z) with 2. change (length [tt]) with 1. rewrite (proj1 halves), (proj2 halves). cbn [jdot_loop].
    destruct (half_step' 0 (norm_mean [[1]; [4]]%R) (initial_cost 2 1, None)) as (e1 & M1 & l1 & k1 & E1). rewrite E1. cbn [bind].
    destruct (half_step' 1 (norm_mean [[1]; [4]]%R) (M1, Some (e1, [[1 / 2]; [1 / 2]]%R))) as (e2 & M2 & l2 & k2 & E2). rewrite E2. cbn [bind Nat.eqb Nat.sub].
    repeat match goal with |- context [small_change ?a ?b ?c] => destruct (small_change a b c) end; cbn; repeat eexists; reflexivity.
Qed.
