(** * C246: gradual adaptation moves every sample in equal steps, and samples that start apart do not meet on the way *)
From Coq Require Import String List ZArith QArith Bool Arith Lia Reals Lra Qreals.
From Verif Require Import Np NpFacts Labels UtilsModel SelectModel Spec SpecFacts UtilsSpec RVec RVecFacts MapModel RMat MapSpec
  OTModel OTSpec OTProofs OTProofs2 SelfModel SelfSpec SelfProofs GradProofs GradProofs2 ThmGrad ThmJdot.
From Verif Require ThmRecal ThmClose ThmKeepOrder.
Import ListNotations.
Local Open Scope nat_scope.
Local Open Scope list_scope.

(** ** Specification *)
(** Entry k of a row; the squared distance of two rows of D features. *)
Notation entries := ThmKeepOrder.entries.
Notation sq_euclid := ThmRecal.sq_euclid.
(** The plan of a transport with the given masses, under the squared Euclidean cost, of the sources and targets given to it. *)
Definition exact_plans (D : nat) (plan : list (list R) -> list val -> list (list R) -> list val -> res (list (list R))) : Prop :=
  forall Xs ys Xt yt G, plan Xs ys Xt yt = Ok G -> exists a b, length a = length Xs /\ length b = length Xt /\
    (forall i, i < length Xs -> (0 < nth i a 0)%R) /\ (forall j, j < length Xt -> (0 < nth j b 0)%R) /\
    ThmRecal.optimal_plan (sq_euclid D) Xs Xt a b G.

(** ** Lemmas *)
Lemma between_entry n t a b k : length a = length b -> entries (between n t a b) k = ((1 - INR t / INR n) * entries a k + INR t / INR n * entries b k)%R.
Proof.
  unfold entries, between. revert b k. induction a as [|x a IH]; intros [|y b] k L; try discriminate; cbn.
  - destruct k; ring.
  - injection L as L. destruct k; [reflexivity|]. cbn. apply IH, L.
Qed.
Lemma pos_in_sum k f : (0 < msum k f)%R -> exists i, i < k /\ (0 < f i)%R.
Proof.
  intros P. destruct (Classical_Prop.classic (exists i, i < k /\ (0 < f i)%R)) as [?|N]; auto. exfalso.
  assert (L : (msum k f <= msum k (fun _ => 0))%R). { apply msum_le. intros i Hi. apply Rnot_lt_le. intros Q. apply N. eauto. }
  rewrite msum_zero in L. lra.
Qed.
Lemma nth_data {Est} (data : list (list (list R) * Est)) n (gen : nat -> list (list R)) d t : map fst data = map gen (seq 1 n) -> 1 <= t <= n -> fst (nth (t - 1) data d) = gen t.
Proof.
  intros MD Ht. assert (L : length data = n) by (rewrite <- (map_length fst data), MD, map_length, seq_length; reflexivity).
  rewrite <- (map_nth fst data d (t - 1)), MD. rewrite (nth_indep _ (fst d) (gen 0)) by (rewrite map_length, seq_length; lia).
  rewrite (map_nth gen), seq_nth by lia. f_equal. lia.
Qed.

Section Path.
  Context {Est : Type}.
  Variable plan : list (list R) -> list val -> list (list R) -> list val -> res (list (list R)).
  Variable fitE : nat -> list (list R) -> list val -> res Est.
  Variable predictE : Est -> list R -> val.
  Notation fit := (gradual_fit Est plan fitE predictE).
  Notation none := (@nil (list R), @nil val).

(** Sample p of the data of the steps goes from a source to a target: in each of the n steps it moves by one nth of their difference. *)
Theorem C246_equal_steps alpha n advanced w st X y sd gamma st' data :
  (0 <= alpha)%R -> 0 < n -> length X = length sd -> length y = length sd -> Forall (fun r => length r = w) X ->
  let Xs := rows_of is_source sd X in let Xt := rows_of is_target sd X in
  plan Xs (rows_of is_source sd y) Xt (rows_of is_target sd y) = Ok gamma ->
  matrix (length Xs) (length Xt) gamma -> 0 < length Xs -> 0 < length Xt ->
  fit alpha n advanced w st X y sd = Ok (st', data) ->
  exists N, (forall t, 1 <= t <= n -> length (fst (nth (t - 1) data none)) = N) /\
  forall p, p < N -> exists x z, In x Xs /\ In z Xt /\ forall k,
    (entries (nth p (fst (nth 0 data none)) []) k - entries x k = (entries z k - entries x k) / INR n)%R /\
    (forall t, 1 <= t < n ->
      (entries (nth p (fst (nth t data none)) []) k - entries (nth p (fst (nth (t - 1) data none)) []) k = (entries z k - entries x k) / INR n)%R) /\
    entries (nth p (fst (nth (n - 1) data none)) []) k = entries z k.
Proof.
  intros Ha Hn LX Ly HW Xs Xt HC M Hs Ht H.
  destruct (fit_inv plan fitE predictE alpha n advanced w st X y sd gamma st' data Ha Hn LX Ly HC M Hs Ht H) as (mi & mask & _ & MM & LP & MD & _). fold Xs Xt in MM, LP, MD.
  set (pairs := set_pairs mask (length Xs) (length Xt)) in *. exists (length pairs).
  assert (GD : forall t, 1 <= t <= n -> fst (nth (t - 1) data none) = map (step_row n t Xs Xt) pairs) by (intros t Hq; exact (nth_data data n (fun t => map (step_row n t Xs Xt) pairs) none t MD Hq)).
  split. { intros t Hq. now rewrite GD, map_length. }
  intros p Hp. set (q := nth p pairs (0, 0)). assert (Hq : In q pairs) by (now apply nth_In). destruct q as [i j] eqn:Eq.
  assert (R : i < length Xs /\ j < length Xt) by (apply set_pairs_In in Hq; cbn in Hq; lia).
  assert (W : forall P r, In r (rows_of P sd X) -> length r = w).
  { intros P r Hr. rewrite rows_of_select in Hr. apply select_incl in Hr. rewrite Forall_forall in HW. auto. }
  assert (Ix : In (nth i Xs []) Xs) by (apply nth_In; lia). assert (Iz : In (nth j Xt []) Xt) by (apply nth_In; lia).
  assert (LL : length (nth i Xs []) = length (nth j Xt [])) by (now rewrite (W _ _ Ix), (W _ _ Iz)).
  exists (nth i Xs []), (nth j Xt []). split; [auto|]. split; [auto|]. intros k.
  assert (Pn : INR n <> 0%R) by (apply not_0_INR; lia).
  assert (V : forall t, 1 <= t <= n -> entries (nth p (fst (nth (t - 1) data none)) []) k = ((1 - INR t / INR n) * entries (nth i Xs []) k + INR t / INR n * entries (nth j Xt []) k)%R).
  { intros t Hb. rewrite GD by auto. rewrite (nth_indep _ [] (step_row n t Xs Xt (0, 0))) by (now rewrite map_length).
    rewrite (map_nth (step_row n t Xs Xt)). fold q. rewrite Eq. unfold step_row. cbn [fst snd]. now apply between_entry. }
  split; [|split].
  - change 0 with (1 - 1) at 1. rewrite V by lia. cbn [INR]. field. auto.
  - intros t Hb. replace t with (S t - 1) at 1 by lia. rewrite (V (S t)), (V t) by lia. rewrite S_INR. field. auto.
  - rewrite V by lia. field. auto.
Qed.

(** With advanced_ot_plan_sampling and an exact plan, two samples that start at distance d are, after t of the n steps, at least
    (1 - t / n) d apart, and their difference makes an angle of at most 90 degrees with the one they start with. *)
Theorem C246_do_not_meet D alpha n st X y sd gamma st' data : exact_plans D plan ->
  (0 <= alpha)%R -> 0 < n -> length X = length sd -> length y = length sd -> Forall (fun r => length r = D) X ->
  let Xs := rows_of is_source sd X in let Xt := rows_of is_target sd X in
  plan Xs (rows_of is_source sd y) Xt (rows_of is_target sd y) = Ok gamma -> 0 < length Xs -> 0 < length Xt ->
  fit alpha n true D st X y sd = Ok (st', data) ->
  exists from : nat -> nat, exists N,
  (forall i, i < length Xs -> exists p, p < N /\ from p = i) /\
  forall p p', p < N -> p' < N -> from p < length Xs /\
    let x := nth (from p) Xs [] in let x' := nth (from p') Xs [] in
    forall t, 1 <= t <= n ->
      let u := nth p (fst (nth (t - 1) data none)) [] in let u' := nth p' (fst (nth (t - 1) data none)) [] in
      length (fst (nth (t - 1) data none)) = N /\
      ((1 - INR t / INR n) * (1 - INR t / INR n) * sq_euclid D x x' <= sq_euclid D u u')%R /\
      ThmKeepOrder.along D (entries x) (entries x') (entries u) (entries u').
Proof.
  intros HP Ha Hn LX Ly HW Xs Xt HC Hs Ht H.
  destruct (HP _ _ _ _ _ HC) as (a & b & La & Lb & Pa & Pb & OP). fold Xs in La, Pa, OP. fold Xt in Lb, Pb, OP. destruct OP as (CP & Best). specialize (Best []).
  destruct CP as (M & NG & RG & CG). assert (CP : coupling a b gamma) by (now repeat split; try apply M). rewrite La, Lb in M, NG, RG, CG.
  destruct (C59_advanced plan fitE predictE alpha n D st X y sd gamma st' data Ha Hn LX Ly HC M Hs Ht H) as (pairs & ND & IFF & Ex & _ & MD). fold Xs Xt in IFF, Ex, MD.
  assert (POS : forall i j, In (i, j) pairs -> i < length Xs /\ j < length Xt /\ (0 < at2 gamma i j)%R).
  { intros i j Hij. apply IFF in Hij as (Hi & Hj & B). split; [auto|]. split; [auto|]. destruct B as [(_ & B & _)|(_ & B & _)].
    - destruct (pos_in_sum (length Xt) (fun j => at2 gamma i j)) as (q & Hq & Q). { rewrite RG by auto. now apply Pa. }
      specialize (B q Hq). unfold entry in B. unfold at2 in *. lra.
    - destruct (pos_in_sum (length Xs) (fun i => at2 gamma i j)) as (q & Hq & Q). { rewrite CG by auto. now apply Pb. }
      specialize (B q Hq). unfold entry in B. unfold at2 in *. lra. }
  exists (fun p => fst (nth p pairs (0, 0))), (length pairs). split.
  { intros i Hi. destruct (Ex i Hi) as (j & Hj). destruct (In_nth _ _ (0, 0) Hj) as (p & Hp & E). exists p. rewrite E. auto. }
  intros p p' Hp Hp'. destruct (nth p pairs (0, 0)) as [i j] eqn:E. destruct (nth p' pairs (0, 0)) as [i' j'] eqn:E'. cbn [fst].
  destruct (POS i j) as (Hi & Hj & G1). { rewrite <- E. now apply nth_In. } destruct (POS i' j') as (Hi' & Hj' & G2). { rewrite <- E'. now apply nth_In. }
  split; [auto|]. cbv zeta. intros t Hb.
  rewrite (nth_data data n (fun t => map (fun p => between n t (nth (fst p) Xs []) (nth (snd p) Xt [])) pairs) none t MD Hb). split; [now rewrite map_length|].
  assert (W : forall P r, In r (rows_of P sd X) -> length r = D).
  { intros P r Hr. rewrite rows_of_select in Hr. apply select_incl in Hr. rewrite Forall_forall in HW. auto. }
  assert (LS : forall i, i < length Xs -> length (nth i Xs []) = D) by (intros; apply (W is_source); now apply nth_In).
  assert (LT : forall i, i < length Xt -> length (nth i Xt []) = D) by (intros; apply (W is_target); now apply nth_In).
  set (g := fun p : nat * nat => between n t (nth (fst p) Xs []) (nth (snd p) Xt [])).
  assert (V : forall q, q < length pairs -> nth q (map g pairs) [] = g (nth q pairs (0, 0))).
  { intros q Hq. rewrite (nth_indep _ [] (g (0, 0))) by (now rewrite map_length). apply map_nth. }
  rewrite !V, E, E' by auto. unfold g. cbn [fst snd].
  set (s := (INR t / INR n)%R). assert (S0 : (0 <= s <= 1)%R).
  { assert (0 < INR n)%R by (apply lt_0_INR; lia). assert (INR t <= INR n)%R by (apply le_INR; lia). assert (0 <= INR t)%R by apply pos_INR.
    unfold s, Rdiv. split; [apply Rmult_le_pos; [auto|left; now apply Rinv_0_lt_compat]|]. apply (Rmult_le_reg_r (INR n)); [auto|]. rewrite Rmult_assoc, Rinv_l by lra. lra. }
  pose proof (ThmKeepOrder.exchange a b _ gamma i i' j j' CP Best) as X0. rewrite La, Lb in X0. specialize (X0 Hi Hi' Hj Hj' G1 G2). cbv beta in X0. unfold ThmRecal.sq_euclid in X0.
  set (x := nth i Xs []) in *. set (x' := nth i' Xs []) in *. set (z := nth j Xt []) in *. set (z' := nth j' Xt []) in *.
  set (d := fun k => (entries x' k - entries x k)%R). set (e := fun k => (entries z' k - entries z k)%R).
  assert (DE : (0 <= msum D (fun k => d k * e k))%R).
  { assert (Q : (2 * msum D (fun k => d k * e k) = (msum D (fun k => (entries x k - entries z' k) * (entries x k - entries z' k)) + msum D (fun k => (entries x' k - entries z k) * (entries x' k - entries z k)))
      - (msum D (fun k => (entries x k - entries z k) * (entries x k - entries z k)) + msum D (fun k => (entries x' k - entries z' k) * (entries x' k - entries z' k))))%R).
    { rewrite <- !msum_plus, <- msum_scal. match goal with |- ?l = (?u - ?v)%R => cut ((l + v)%R = u); [intros; lra|] end. rewrite <- msum_plus. apply msum_ext. intros. unfold d, e. ring. }
    unfold entries in Q. change ThmKeepOrder.entries with (fun (r : list R) k => nth k r 0%R) in *. cbv beta in Q. lra. }
  assert (DD : (0 <= msum D (fun k => d k * d k))%R) by (apply ThmClose.msum_pos; intros; nra).
  assert (EE : (0 <= msum D (fun k => e k * e k))%R) by (apply ThmClose.msum_pos; intros; nra).
  assert (B1 : forall k, entries (between n t x z) k = ((1 - s) * entries x k + s * entries z k)%R) by (intros; unfold x, z; apply between_entry; now rewrite LS, LT).
  assert (B2 : forall k, entries (between n t x' z') k = ((1 - s) * entries x' k + s * entries z' k)%R) by (intros; unfold x', z'; apply between_entry; now rewrite LS, LT).
  split.
  - apply Rle_trans with ((1 - s) * (1 - s) * msum D (fun k => d k * d k) + (2 * s * (1 - s)) * msum D (fun k => d k * e k) + s * s * msum D (fun k => e k * e k))%R.
    + replace (sq_euclid D x x') with (msum D (fun k => d k * d k)%R) by (apply msum_ext; intros; unfold d, entries; ring).
      assert (0 <= s * (1 - s))%R by nra. assert (0 <= s * (1 - s) * msum D (fun k => d k * e k))%R by (now apply Rmult_le_pos). nra.
    + right. rewrite <- !msum_scal, <- !msum_plus. apply msum_ext. intros k _. cbv beta. fold (entries (between n t x z) k). fold (entries (between n t x' z') k). rewrite B1, B2. unfold d, e. ring.
  - unfold ThmKeepOrder.along. change sigma with msum.
    rewrite (msum_ext D _ (fun k => (1 - s) * (d k * d k) + s * (d k * e k))%R) by (intros; rewrite B1, B2; unfold d, e; ring).
    rewrite msum_plus, !msum_scal. assert (0 <= (1 - s) * msum D (fun k => d k * d k))%R by (apply Rmult_le_pos; lra). assert (0 <= s * msum D (fun k => d k * e k))%R by (apply Rmult_le_pos; lra). lra.
Qed.
End Path.

(** With the default alpha = 1, n_steps = 10 and advanced_ot_plan_sampling = False, two sources and two targets at 0 and 2 always give
    two samples that start at 0 and 2, and are both at 1 after five steps, whatever the plan: all pairs are kept. *)
Theorem C246_default_refuted : forall Est plan (fitE : nat -> list (list R) -> list val -> res Est) predictE st y gamma,
  let X := [[0]; [2]; [0]; [2]]%R in let sd := [1; 1; -2; -2]%Z in length y = 4 ->
  plan [[0]; [2]]%R (rows_of is_source sd y) [[0]; [2]]%R (rows_of is_target sd y) = Ok gamma -> matrix 2 2 gamma ->
  (forall c A l, exists e, fitE c A l = Ok e) ->
  exists st' data, gradual_fit Est plan fitE predictE 1 10 false 1 st X y sd = Ok (st', data) /\
  exists p q, nth p (fst (nth 0 data ([], []))) [] = [1 / 5]%R /\ nth q (fst (nth 0 data ([], []))) [] = [9 / 5]%R /\
    nth p (fst (nth 4 data ([], []))) [] = [1]%R /\ nth q (fst (nth 4 data ([], []))) [] = [1]%R.
Proof.
  intros Est plan fitE predictE st y gamma X sd Ly HC M HF.
  destruct (cut_off_spec 1 gamma 2 2 ltac:(lra) M ltac:(lia) ltac:(lia)) as (mi & mask & th & E & EM & EI & B & C & _).
  assert (MI : mi = 3%Z).
  { rewrite EI. replace (Rmin (1 * INR (2 + 2)) (IZR (Z.of_nat (2 * 2) - 1)))%R with 3%R; [apply (py_int_IZR 3); lia|]. cbn. unfold Rmin. destruct Rle_dec; lra. }
  assert (MM : matrix 2 2 mask) by (rewrite EM; now apply map_matrix).
  assert (ALL : mask = [[true; true]; [true; true]]).
  { clear - MM C MI. destruct MM as (L2 & F). destruct mask as [|r1 [|r2 [|]]]; try discriminate. inversion F as [|? ? L1 F']; subst. inversion F' as [|? ? L3 _]; subst.
    destruct r1 as [|? [|? [|]]]; try discriminate. destruct r2 as [|? [|? [|]]]; try discriminate. destruct b, b0, b1, b2; cbn in C; try lia. reflexivity. }
  clear EM MM C B EI. subst mi mask.
  assert (RUN : exists r, gradual_fit Est plan fitE predictE 1 10 false 1 st X y sd = Ok r).
  { unfold gradual_fit. cbv zeta.
    rewrite (proj1 (select_rows X sd eq_refl)), (proj2 (select_rows X sd eq_refl)), (proj1 (select_rows y sd Ly)), (proj2 (select_rows y sd Ly)).
    cbn [bind]. change (rows_of is_source sd X) with [[0]; [2]]%R. change (rows_of is_target sd X) with [[0]; [2]]%R. rewrite HC. cbn [bind].
    change (length [[0]; [2]]%R) with 2. rewrite E. cbn [bind fst snd]. fold (start st).
    destruct (HF (start st) [[0]; [2]]%R (rows_of is_source sd y)) as [e0 E0]. rewrite E0. cbn [bind].
    assert (W : Forall (fun r => length r = 1) [[0]; [2]]%R) by repeat constructor.
    assert (MT : matrix 2 2 [[true; true]; [true; true]]) by (split; repeat constructor).
    destruct (gradual_loop_total fitE predictE 10 3%Z [[true; true]; [true; true]] 1 [[0]; [2]]%R [[0]; [2]]%R 2 2 HF W W MT eq_refl eq_refl ltac:(lia) eq_refl (seq 1 10) (start st) e0) as [[[c e] d] ->].
    cbn [bind]. eauto. }
  destruct RUN as [[st' data] RUN]. exists st', data. split; [exact RUN|].
  destruct (fit_inv plan fitE predictE 1 10 false 1 st X y sd gamma st' data ltac:(lra) ltac:(lia) eq_refl Ly HC M ltac:(cbn; lia) ltac:(cbn; lia) RUN) as (mi & mask & E' & _ & _ & MD & _).
  change (rows_of is_source sd X) with [[0]; [2]]%R in *. change (rows_of is_target sd X) with [[0]; [2]]%R in *. change (length [[0]; [2]]%R) with 2 in *.
  rewrite E in E'. injection E' as <- <-.
  pose proof (nth_data data 10 _ ([], []) 1 MD ltac:(lia)) as D1. pose proof (nth_data data 10 _ ([], []) 5 MD ltac:(lia)) as D5.
  change (1 - 1) with 0 in D1. change (5 - 1) with 4 in D5. rewrite D1, D5. clear.
  change (set_pairs [[true; true]; [true; true]] 2 2) with [(0, 0); (0, 1); (1, 0); (1, 1)].
  exists 1, 2. unfold step_row, between. cbn [map nth fst snd map2]. repeat split; f_equal; cbn [INR]; field.
Qed.

(** ** Examples *)
(** Two sources at 0 and 4, two targets at 8 and 10: the plan that moves 0 to 8 and 4 to 10 is the cheapest. *)
Definition straight_plan (Xs : list (list R)) (ys : list val) (Xt : list (list R)) (yt : list val) : res (list (list R)) :=
  match Xs, Xt with
  | [[a]; [b]], [[c]; [d]] => if Rleb 0 ((b - a) * (d - c)) then Ok [[1 / 2; 0]; [0; 1 / 2]]%R else Ok [[0; 1 / 2]; [1 / 2; 0]]%R
  | _, _ => Err ValueError
  end.
Lemma straight_exact : exact_plans 1 straight_plan.
Proof.
  intros Xs ys Xt yt G. unfold straight_plan.
  destruct Xs as [|[|a []] [|[|b []] []]]; try discriminate. destruct Xt as [|[|c []] [|[|d []] []]]; try discriminate. intros E.
  exists [1 / 2; 1 / 2]%R, [1 / 2; 1 / 2]%R. split; [auto|]. split; [auto|].
  split; [intros [|[|?]] ?; cbn in *; try lia; lra|]. split; [intros [|[|?]] ?; cbn in *; try lia; lra|].
  assert (GM : matrix 2 2 G) by (destruct Rleb; injection E as <-; split; repeat constructor).
  split.
  - split; [exact GM|]. destruct Rleb; injection E as <-; (split; [intros [|[|?]] [|[|?]] ? ?; cbn in *; try lia; lra|]); split; intros [|[|?]] ?; cbn in *; try lia; lra.
  - intros dd G' (M' & N' & R' & C'). unfold spent, sq_euclid. cbn [length msum nth] in *.
    pose proof (N' 0 0 ltac:(cbn; lia) ltac:(cbn; lia)). pose proof (N' 0 1 ltac:(cbn; lia) ltac:(cbn; lia)). pose proof (N' 1 0 ltac:(cbn; lia) ltac:(cbn; lia)). pose proof (N' 1 1 ltac:(cbn; lia) ltac:(cbn; lia)).
    pose proof (R' 0 ltac:(cbn; lia)) as R0. pose proof (R' 1 ltac:(cbn; lia)) as R1. pose proof (C' 0 ltac:(cbn; lia)) as C0. pose proof (C' 1 ltac:(cbn; lia)) as C1.
    cbn [msum nth] in R0, R1, C0, C1. set (g00 := at2 G' 0 0) in *. set (g01 := at2 G' 0 1) in *. set (g10 := at2 G' 1 0) in *. set (g11 := at2 G' 1 1) in *.
    assert (E01 : g01 = (1 / 2 - g00)%R) by lra. assert (E10 : g10 = (1 / 2 - g00)%R) by lra. assert (E11 : g11 = g00) by lra.
    rewrite E01, E10, E11.
    destruct (Rleb 0 ((b - a) * (d - c))) eqn:Q; injection E as <-; cbn.
    + apply Rleb_iff in Q. assert (0 <= (1 / 2 - g00) * ((b - a) * (d - c)))%R by (apply Rmult_le_pos; lra). lra.
    + apply Rleb_false in Q. assert (0 <= g00 * (0 - (b - a) * (d - c)))%R by (apply Rmult_le_pos; lra). lra.
Qed.
Example C246_ex : exists st' data, gradual_fit _ straight_plan g_fit g_label 1 10 true 1 g_new gx gy gsd = Ok (st', data) /\
  exists p p', p < length (fst (nth 4 data ([], []))) /\ p' < length (fst (nth 4 data ([], []))) /\
  (4 <= sq_euclid 1 (nth p (fst (nth 4 data ([], []))) []) (nth p' (fst (nth 4 data ([], []))) []))%R.
Proof.
  assert (EP : straight_plan [[0]; [4]]%R (rows_of is_source gsd gy) [[8]; [10]]%R (rows_of is_target gsd gy) = Ok [[1 / 2; 0]; [0; 1 / 2]]%R).
  { unfold straight_plan. replace (Rleb 0 ((4 - 0) * (10 - 8))) with true; [reflexivity|]. symmetry. apply Rleb_iff. lra. }
  destruct (C59_completes_partial straight_plan g_fit g_label 1 10 true 1 g_new gx gy gsd [[1 / 2; 0]; [0; 1 / 2]]%R) as [[st' d] H];
    auto; try lra; try reflexivity; try (cbn; lia); try (split; repeat constructor); [repeat constructor|intros; eexists; reflexivity|].
  exists st', d. split; [exact H|].
  destruct (C246_do_not_meet straight_plan g_fit g_label 1 1 10 g_new gx gy gsd _ st' d straight_exact ltac:(lra) ltac:(lia) eq_refl eq_refl ltac:(repeat constructor) EP ltac:(cbn; lia) ltac:(cbn; lia) H) as (from & N & Ex & A).
  destruct (Ex 0 ltac:(cbn; lia)) as (p & Hp & Fp). destruct (Ex 1 ltac:(cbn; lia)) as (p' & Hp' & Fp').
  destruct (A p p' Hp Hp') as (_ & B). rewrite Fp, Fp' in B. specialize (B 5 ltac:(lia)). change (5 - 1) with 4 in B. destruct B as (L & B & _).
  exists p, p'. rewrite L. split; [auto|]. split; [auto|]. refine (Rle_trans _ _ _ _ B). cbn. unfold ThmRecal.sq_euclid. cbn. lra.
Qed.
Example C246_default_ex : exists st' data, gradual_fit _ straight_plan g_fit g_label 1 10 false 1 g_new [[0]; [2]; [0]; [2]]%R gy gsd = Ok (st', data) /\
  exists p q, nth p (fst (nth 4 data ([], []))) [] = [1]%R /\ nth q (fst (nth 4 data ([], []))) [] = [1]%R /\ p <> q.
Proof.
  assert (EP : straight_plan [[0]; [2]]%R (rows_of is_source gsd gy) [[0]; [2]]%R (rows_of is_target gsd gy) = Ok [[1 / 2; 0]; [0; 1 / 2]]%R).
  { unfold straight_plan. replace (Rleb 0 ((2 - 0) * (2 - 0))) with true; [reflexivity|]. symmetry. apply Rleb_iff. lra. }
  destruct (C246_default_refuted _ straight_plan g_fit g_label g_new gy _ eq_refl EP) as (st' & d & H & p & q & A & B & C & D).
  - split; repeat constructor.
  - intros. eexists. reflexivity.
  - exists st', d. split; [exact H|]. exists p, q. split; [exact C|]. split; [exact D|]. intros <-. rewrite A in B. injection B as B. lra.
Qed.
