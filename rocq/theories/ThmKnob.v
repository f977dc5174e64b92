(** * C225: turning a knob one way acts one way *)
From Coq Require Import String List ZArith QArith Bool Arith Lia Reals Lra Psatz.
From Verif Require Import Np NpFacts Labels Spec SpecFacts UtilsModel UtilsSpec UtilsProofs UtilsProofs2 SelectModel RVec RVecFacts
  OTModel OTSpec OTProofs OTProofs2 MetricsModel MetricsSpec MetricsProofs SelfModel SelfSpec GradProofs GradProofs2 ThmGrad.
Import ListNotations.
Local Open Scope nat_scope.
Local Open Scope list_scope.

(** ** Soft neighbourhood density: a higher temperature, a higher score *)
Lemma vsum_mono {A} (f g : A -> R) l : (forall x, In x l -> f x <= g x)%R -> (vsum (map f l) <= vsum (map g l))%R.
Proof. induction l as [|a l IH]; intros H; [cbn; lra|]. cbn [map vsum]. pose proof (H a (or_introl eq_refl)). specialize (IH (fun x Hx => H x (or_intror Hx))). lra. Qed.
Lemma vsum_lin {A} a b (f g : A -> R) l : vsum (map (fun x => a * f x + b * g x)%R l) = (a * vsum (map f l) + b * vsum (map g l))%R.
Proof. induction l as [|x l IH]; cbn [map vsum]; [lra|]. rewrite IH. lra. Qed.
Lemma vsum_map_ext {A} (f g : A -> R) l : (forall x, In x l -> f x = g x) -> vsum (map f l) = vsum (map g l).
Proof. intros H. f_equal. now apply map_ext_in. Qed.

(** The distribution with weights exp (b / T), and its entropy. *)
Section Gibbs.
  Variable b : list R.
  Hypothesis Hb : b <> [].
  Definition part (c : R) : R := vsum (map (fun t => exp (c * t)) b).
  Definition avg (c : R) : R := vsum (map (fun t => exp (c * t) / part c * t)%R b).
  Definition ent (c : R) : R := vsum (map (fun t => - (exp (c * t) / part c) * ln (exp (c * t) / part c))%R b).
  Lemma part_pos c : (0 < part c)%R.
  Proof. apply vsum_pos; [destruct b; [now elim Hb|discriminate]|]. apply Forall_map, Forall_forall. intros; apply exp_pos. Qed.
  Lemma total_one c : vsum (map (fun t => exp (c * t) / part c)%R b) = 1%R.
  Proof.
    pose proof (part_pos c). rewrite (vsum_map_ext _ (fun t => / part c * exp (c * t) + 0 * 0)%R) by (intros; unfold Rdiv; lra).
    rewrite (vsum_lin _ _ (fun t => exp (c * t)) (fun _ => 0%R)). fold (part c). field. lra.
  Qed.
  Lemma ln_weight c t : ln (exp (c * t) / part c) = (c * t - ln (part c))%R.
  Proof. pose proof (part_pos c). pose proof (exp_pos (c * t)). unfold Rdiv. rewrite ln_mult by (auto; apply Rinv_0_lt_compat; auto). rewrite ln_exp, ln_Rinv by auto. lra. Qed.
  (** Cross entropy of the weights for [c] against those for [d]. *)
  Lemma cross c d : vsum (map (fun t => - (exp (c * t) / part c) * ln (exp (d * t) / part d))%R b) = (ln (part d) - d * avg c)%R.
  Proof.
    rewrite (vsum_map_ext _ (fun t => ln (part d) * (exp (c * t) / part c) + (- d) * (exp (c * t) / part c * t))%R) by (intros; rewrite ln_weight; lra).
    rewrite (vsum_lin _ _ (fun t => exp (c * t) / part c)%R). rewrite total_one. fold (avg c). lra.
  Qed.
  Lemma gibbs c d : (ent c <= ln (part d) - d * avg c)%R.
  Proof.
    rewrite <- cross. unfold ent.
    assert (D : (vsum (map (fun t => 1 * (- (exp (c * t) / part c) * ln (exp (c * t) / part c)) + (-1) * (- (exp (c * t) / part c) * ln (exp (d * t) / part d)))%R b)
                 <= vsum (map (fun t => 1 * (exp (d * t) / part d) + (-1) * (exp (c * t) / part c))%R b))%R).
    { apply vsum_mono. intros t _.
      pose proof (part_pos c). pose proof (part_pos d). pose proof (exp_pos (c * t)). pose proof (exp_pos (d * t)).
      set (p := (exp (c * t) / part c)%R). set (q := (exp (d * t) / part d)%R).
      assert (0 < p)%R by (apply Rdiv_lt_0_compat; auto). assert (0 < q)%R by (apply Rdiv_lt_0_compat; auto).
      assert (L : (ln (q / p) <= q / p - 1)%R) by (apply ln_le_sub, Rdiv_lt_0_compat; auto).
      unfold Rdiv in L at 1. rewrite ln_mult in L by (auto; apply Rinv_0_lt_compat; auto). rewrite ln_Rinv in L by auto.
      assert (p * (ln q - ln p) <= p * (q / p - 1))%R by (apply Rmult_le_compat_l; lra). replace (p * (q / p - 1))%R with (q - p)%R in * by (field; lra). lra. }
    rewrite (vsum_lin _ _ (fun t => - (exp (c * t) / part c) * ln (exp (c * t) / part c))%R) in D.
    rewrite (vsum_lin _ _ (fun t => exp (d * t) / part d)%R) in D. rewrite !total_one in D. lra.
  Qed.
  Lemma ent_eq c : ent c = (ln (part c) - c * avg c)%R.
  Proof. unfold ent. now rewrite cross. Qed.
  Lemma ent_mono c d : (0 <= c <= d)%R -> (ent d <= ent c)%R.
  Proof. intros H. pose proof (gibbs c d) as G1. pose proof (gibbs d c) as G2. pose proof (ent_eq c) as E1. pose proof (ent_eq d) as E2.
    destruct (Req_dec c d) as [->|N]; [lra|]. assert (A : (avg c <= avg d)%R) by nra. nra. Qed.
End Gibbs.

Lemma row_temperature b T T' : b <> [] -> (0 < T <= T')%R ->
  (row_entropy (softmax_row (map (fun t => t / T) b)) <= row_entropy (softmax_row (map (fun t => t / T') b)))%R.
Proof.
  intros Hb HT.
  assert (E : forall U, (0 < U)%R -> row_entropy (softmax_row (map (fun t => t / U)%R b)) = ent b (/ U)).
  { intros U HU. assert (N : map (fun t => (t / U)%R) b <> []) by (destruct b; [now elim Hb|discriminate]). rewrite (proj1 (softmax_row_spec _ N)).
    unfold row_entropy, ent. rewrite !map_map.
    assert (P : vsum (map (fun x => exp (x / U)) b) = part b (/ U)) by (apply vsum_map_ext; intros; f_equal; unfold Rdiv; lra).
    rewrite P. apply vsum_map_ext. intros x _. unfold Rdiv at 2 4. now rewrite (Rmult_comm x). }
  rewrite !E by lra. apply ent_mono; [exact Hb|]. split; [left; apply Rinv_0_lt_compat; lra|]. apply Rinv_le_contravar; lra.
Qed.
Definition negate_from (k : nat) (S : list (list R)) : list (list R) :=
  map (fun ir : nat * list R => map (fun jt : nat * R => if fst jt =? fst ir then (- snd jt)%R else snd jt) (combine (seq 0 (length (snd ir))) (snd ir))) (combine (seq k (length S)) S).
Lemma negate_scale S T : negate_diag (map (map (fun s => s / T)%R) S) = map (map (fun s => s / T)%R) (negate_diag S).
Proof.
  change (negate_from 0 (map (map (fun s => s / T)%R) S) = map (map (fun s => s / T)%R) (negate_from 0 S)). generalize 0 as k. induction S as [|r S IH]; intros k; [reflexivity|].
  specialize (IH (Datatypes.S k)). unfold negate_from in *. cbn [length seq combine map fst snd]. rewrite IH. apply (f_equal2 (@cons (list R))); [|reflexivity]. rewrite map_length.
  clear. generalize 0 as j. induction r as [|x r IHr]; intros j; [reflexivity|]. cbn [length seq combine map fst snd]. rewrite IHr. apply (f_equal2 (@cons R)); [|reflexivity].
  destruct (j =? k); unfold Rdiv; lra.
Qed.
Lemma negate_rows S : Forall (fun r => r <> []) S -> Forall (fun r => r <> []) (negate_diag S).
Proof.
  change (Forall (fun r => r <> []) S -> Forall (fun r => r <> []) (negate_from 0 S)). generalize 0 as k. induction S as [|r S IH]; intros k H; [constructor|]. apply Forall_cons_iff in H as [Hr H].
  specialize (IH (Datatypes.S k) H). unfold negate_from in *. cbn [length seq combine map]. constructor; [|exact IH]. destruct r; [now elim Hr|discriminate].
Qed.
Theorem C225_temperature : forall Row sign pp T T' (X : list Row) y sda r r', (0 < T <= T')%R ->
  snd_score Row sign pp T X y sda = Ok r -> snd_score Row sign pp T' X y sda = Ok r' ->
  exists s s', r = (sign * s)%R /\ r' = (sign * s')%R /\ (s <= s')%R.
Proof.
  intros Row sign pp T T' X y sda r r' HT H H'. unfold snd_score in *. destruct (target_part Row X y sda) as [[[m Xt] sdt]|]; [|discriminate]. cbn [bind] in *.
  destruct (pp Xt sdt) as [P|]; [|discriminate]. cbn [bind] in *. injection H as <-. injection H' as <-. eexists. eexists. split; [reflexivity|]. split; [reflexivity|].
  set (Q := map l2 P). set (S := map (fun r => map (fun r' => dot r r') Q) Q).
  assert (E : forall U, map (fun r => map (fun r' => dot r r' / U)%R Q) Q = map (map (fun s => s / U)%R) S).
  { intros U. unfold S. rewrite map_map. apply map_ext. intros r. now rewrite map_map. }
  rewrite !E, !negate_scale. set (B := negate_diag S).
  assert (F : Forall (fun r => r <> []) B).
  { apply negate_rows. unfold S. apply Forall_map, Forall_forall. intros r Hr. destruct Q; [destruct Hr|discriminate]. }
  unfold mean. rewrite !map_length, !map_map. unfold Rdiv. destruct (length B) as [|n] eqn:EB.
  - destruct B; [|discriminate]. cbn. lra.
  - apply Rmult_le_compat_r; [left; apply Rinv_0_lt_compat, lt_0_INR; lia|]. apply vsum_mono. intros b Hb. rewrite Forall_forall in F. apply row_temperature; auto.
Qed.

(** ** MaNo: a higher power, a higher score (the power mean inequality) *)
Lemma bernoulli s r : (0 <= s)%R -> (1 <= r)%R -> (1 + r * (s - 1) <= np_pow s r)%R.
Proof.
  intros Hs Hr. unfold np_pow, Reqb. destruct (Req_EM_T s 0) as [->|Ns]; [lra|]. assert (0 < s)%R by lra.
  destruct (Rle_lt_dec (1 + r * (s - 1)) 0) as [L|L]; [pose proof (exp_pos (r * ln s)); unfold Rpower; lra|].
  set (z := (1 + r * (s - 1))%R) in *. rewrite <- (exp_ln z L). unfold Rpower.
  assert (K : (ln z <= r * ln s)%R).
  { assert (A : (ln (z / s) <= z / s - 1)%R) by (apply ln_le_sub, Rdiv_lt_0_compat; auto). assert (B : (ln (/ s) <= / s - 1)%R) by (apply ln_le_sub, Rinv_0_lt_compat; auto).
    unfold Rdiv in A at 1. rewrite ln_mult in A by (auto; apply Rinv_0_lt_compat; auto). rewrite ln_Rinv in A, B by auto.
    assert ((r - 1) * (- ln s) <= (r - 1) * (/ s - 1))%R by (apply Rmult_le_compat_l; lra).
    assert (Z : (z / s - 1 + (r - 1) * (/ s - 1) = 0)%R) by (unfold z; field; lra). lra. }
  destruct K as [K| ->]; [left; now apply exp_increasing|right; reflexivity].
Qed.
Lemma pow_nonneg x p : (0 <= np_pow x p)%R.
Proof. unfold np_pow. destruct (Reqb x 0); [lra|]. left. apply exp_pos. Qed.
Lemma pow_pow x p q : (0 <= x)%R -> (0 < p)%R -> np_pow (np_pow x p) q = np_pow x (p * q).
Proof.
  intros Hx Hp. unfold np_pow, Reqb. destruct (Req_EM_T x 0) as [->|N]; [destruct (Req_EM_T 0 0); [reflexivity|lra]|].
  destruct (Req_EM_T (Rpower x p) 0) as [E|_]; [pose proof (exp_pos (p * ln x)); unfold Rpower in E; lra|]. apply Rpower_mult.
Qed.
Lemma pow_le x y p : (0 <= x <= y)%R -> (0 < p)%R -> (np_pow x p <= np_pow y p)%R.
Proof.
  intros H Hp. unfold np_pow, Reqb. destruct (Req_EM_T x 0) as [->|N]; destruct (Req_EM_T y 0) as [->|N']; try lra; [left; apply exp_pos|].
  apply Rle_Rpower_l; lra.
Qed.
Lemma pow_mul x y p : (0 <= x)%R -> (0 < y)%R -> np_pow (x * y) p = (np_pow x p * np_pow y p)%R.
Proof.
  intros Hx Hy. unfold np_pow, Reqb. destruct (Req_EM_T y 0); [lra|]. destruct (Req_EM_T x 0) as [->|N]; [rewrite Rmult_0_l; destruct (Req_EM_T 0 0); [lra|lra]|].
  destruct (Req_EM_T (x * y) 0) as [E|_]; [apply Rmult_integral in E; lra|]. symmetry. apply Rpower_mult_distr; lra.
Qed.
Lemma power_mean l r : Forall (fun z => 0 <= z)%R l -> (1 <= r)%R -> l <> [] -> (0 < mean l)%R -> (np_pow (mean l) r <= mean (map (fun z => np_pow z r) l))%R.
Proof.
  intros F Hr Hl Hm. set (m := mean l) in *.
  assert (HN : (0 < INR (length l))%R) by (apply lt_0_INR; destruct l; [now elim Hl|cbn; lia]).
  assert (Pm : (0 < np_pow m r)%R) by (unfold np_pow, Reqb; destruct (Req_EM_T m 0); [lra|apply exp_pos]).
  assert (K : (vsum (map (fun z => np_pow m r * (1 - r) + (np_pow m r * r / m) * z)%R l) <= vsum (map (fun z => np_pow z r) l))%R).
  { apply vsum_mono. intros z Hz. rewrite Forall_forall in F. specialize (F z Hz). cbv beta in F.
    assert (0 <= z / m)%R by (unfold Rdiv; apply Rmult_le_pos; [lra|left; apply Rinv_0_lt_compat; lra]).
    replace z with (z / m * m)%R at 2 by (field; lra). rewrite pow_mul by auto. pose proof (bernoulli (z / m) r H Hr) as Bn.
    apply Rle_trans with ((1 + r * (z / m - 1)) * np_pow m r)%R; [right; field; lra|]. apply Rmult_le_compat_r; [lra|exact Bn]. }
  assert (S : vsum (map (fun z => np_pow m r * (1 - r) + (np_pow m r * r / m) * z)%R l) = (INR (length l) * np_pow m r)%R).
  { assert (V : vsum l = (m * INR (length l))%R) by (unfold m, mean; field; lra).
    assert (C : forall a c (k : list R), vsum (map (fun z => a + c * z)%R k) = (INR (length k) * a + c * vsum k)%R).
    { intros a c k. induction k as [|x k IH]; [cbn; lra|]. cbn [map vsum length]. rewrite IH, S_INR. lra. }
    rewrite C, V. field. lra. }
  rewrite S in K. unfold mean. rewrite map_length. apply (Rmult_le_reg_r (INR (length l))); [exact HN|]. unfold Rdiv. rewrite Rmult_assoc, Rinv_l by lra. lra.
Qed.
Theorem C225_power : forall p q P, (0 < p <= q)%R -> row_stochastic P -> (mano_aggregate p P <= mano_aggregate q P)%R.
Proof.
  intros p q P Hp St. unfold mano_aggregate. set (l := concat P).
  assert (F : Forall (fun z => 0 <= z)%R l).
  { unfold l. clearbody l. induction P as [|r P IH]; [constructor|]. apply Forall_cons_iff in St as [[A _] St]. cbn [concat]. apply Forall_app. split; [exact A|now apply IH]. }
  clearbody l. set (z := map (fun t => np_pow t p) l).
  assert (Z : map (fun t => np_pow t q) l = map (fun t => np_pow t (q / p)) z).
  { unfold z. rewrite map_map. apply map_ext_in. intros t Ht. rewrite Forall_forall in F. rewrite pow_pow by (auto; lra). f_equal. field. lra. }
  rewrite Z. assert (Fz : Forall (fun z => 0 <= z)%R z) by (apply Forall_map, Forall_forall; intros; apply pow_nonneg).
  assert (Nz : forall k, Forall (fun z => 0 <= z)%R k -> (0 <= mean k)%R).
  { intros k H. unfold mean. destruct k as [|x k]; [cbn; unfold Rdiv; lra|]. apply Rmult_le_pos; [now apply vsum_nonneg|left; apply Rinv_0_lt_compat, lt_0_INR; cbn; lia]. }
  destruct (Req_dec (mean z) 0) as [E0|N0].
  { rewrite E0. unfold np_pow at 1, Reqb. destruct (Req_EM_T 0 0); [|lra]. apply pow_nonneg. }
  assert (Pz : (0 < mean z)%R) by (specialize (Nz z Fz); lra).
  assert (Hz : z <> []) by (intros E; rewrite E in N0; apply N0; unfold mean; cbn; unfold Rdiv; lra).
  assert (R1 : (1 <= q / p)%R) by (apply (Rmult_le_reg_r p); [lra|]; unfold Rdiv; rewrite Rmult_assoc, Rinv_l by lra; lra).
  pose proof (power_mean z (q / p) Fz R1 Hz Pz) as K.
  apply Rle_trans with (np_pow (np_pow (mean z) (q / p)) (1 / q)).
  - right. rewrite pow_pow by lra. f_equal. field. lra.
  - apply pow_le; [split; [apply pow_nonneg|exact K]|]. apply Rdiv_lt_0_compat; lra.
Qed.

(** ** JDOT: a higher thr_weights keeps fewer of the training samples *)
Lemma filter_filter_select {A} (f g : A -> bool) l : (forall x, g x = true -> f x = true) -> filter g l = select (map g (filter f l)) (filter f l).
Proof.
  intros H. induction l as [|x l IH]; [reflexivity|]. cbn [filter]. destruct (f x) eqn:Ef.
  - cbn [map select]. destruct (g x); now rewrite IH.
  - destruct (g x) eqn:Eg; [rewrite (H x Eg) in Ef; discriminate|exact IH].
Qed.
Theorem C225_threshold : forall Xrow L (Xt : list Xrow) Yth (labels : list L) thr thr' Xh yh wh, Xt <> [] ->
  matrix (length Xt) (length labels) Yth -> Forall (fun w => 0 <= w)%R (concat Yth) -> (thr <= thr')%R ->
  jdot_data Xt Yth labels thr = Ok (Xh, yh, wh) ->
  exists keep, length keep = length wh /\ jdot_data Xt Yth labels thr' = Ok (select keep Xh, select keep yh, select keep wh).
Proof.
  intros Xrow L Xt Yth labels thr thr' Xh yh wh HX HM F Ht H.
  assert (Mx : exists m, is_max m (concat Yth)). { unfold jdot_data in H. apply bind_ok in H as [m [Em _]]. exists m. now apply np_max_ok. }
  destruct Mx as [m Hm]. assert (Pm : (0 <= m)%R) by (rewrite Forall_forall in F; apply F, Hm).
  rewrite (jdot_data_ok Xt Yth labels thr m) in H by auto. cbv zeta in H. injection H as <- <- <-.
  rewrite (jdot_data_ok Xt Yth labels thr' m) by auto. cbv zeta. set (l := all_triples Xt Yth labels).
  set (f := fun t : Xrow * L * R => Rltb (thr * m) (snd t)). set (g := fun t : Xrow * L * R => Rltb (thr' * m) (snd t)).
  assert (I : forall x, g x = true -> f x = true).
  { intros x. unfold f, g. rewrite !Rltb_iff. intros K. apply Rle_lt_trans with (thr' * m)%R; [|exact K]. now apply Rmult_le_compat_r. }
  exists (map g (filter f l)). split; [now rewrite !map_length|]. rewrite (filter_filter_select f g l I), !select_map. reflexivity.
Qed.

Lemma py_int_mono a b : (0 <= a <= b)%R -> (py_int a <= py_int b)%Z.
Proof.
  intros H. unfold py_int. destruct (Rle_dec 0 a); [|lra]. destruct (Rle_dec 0 b); [|lra]. destruct (base_Int_part a), (base_Int_part b).
  apply Z.lt_succ_r, lt_IZR. rewrite succ_IZR. lra.
Qed.
Lemma in_entry (M : list (list R)) n m x : matrix n m M -> In x (concat M) -> exists i j, i < n /\ j < m /\ entry 0%R M i j = x.
Proof.
  intros [Ln F] H. apply in_concat in H as (r & Hr & Hx). destruct (In_nth M r [] Hr) as (i & Hi & Ei). destruct (In_nth r x 0%R Hx) as (j & Hj & Ej).
  rewrite Forall_forall in F. specialize (F r Hr). exists i, j. split; [lia|]. split; [lia|]. unfold entry. now rewrite Ei.
Qed.
(** ** Gradual adaptation: a higher alpha only adds pairs *)
Theorem C225_alpha : forall Est coupling fitE predictE alpha alpha' n w (st : gstate Est) X y sd gamma st1 data st2 data',
  (0 <= alpha <= alpha')%R -> 0 < n -> length X = length sd -> length y = length sd ->
  let Xs := rows_of is_source sd X in let Xt := rows_of is_target sd X in
  coupling Xs (rows_of is_source sd y) Xt (rows_of is_target sd y) = Ok gamma ->
  matrix (length Xs) (length Xt) gamma -> 0 < length Xs -> 0 < length Xt ->
  gradual_fit Est coupling fitE predictE alpha n false w st X y sd = Ok (st1, data) ->
  gradual_fit Est coupling fitE predictE alpha' n false w st X y sd = Ok (st2, data') ->
  exists pairs pairs', NoDup pairs /\ NoDup pairs' /\ incl pairs pairs' /\
    map fst data = map (fun t => map (fun p => between n t (nth (fst p) Xs []) (nth (snd p) Xt [])) pairs) (seq 1 n) /\
    map fst data' = map (fun t => map (fun p => between n t (nth (fst p) Xs []) (nth (snd p) Xt [])) pairs') (seq 1 n).
Proof.
  intros Est coupling fitE predictE alpha alpha' n w st X y sd gamma st1 data st2 data' Ha Hn LX Ly Xs Xt HC HM Hs Ht H H'.
  assert (Ha1 : (0 <= alpha)%R) by lra. assert (Ha2 : (0 <= alpha')%R) by lra.
  destruct (fit_inv coupling fitE predictE alpha n false w st X y sd gamma st1 data Ha1 Hn LX Ly HC HM Hs Ht H) as (mi & mask & E & MM & LP & MD & _).
  destruct (fit_inv coupling fitE predictE alpha' n false w st X y sd gamma st2 data' Ha2 Hn LX Ly HC HM Hs Ht H') as (mi' & mask' & E' & MM' & LP' & MD' & _).
  fold Xs Xt in E, MM, LP, MD, E', MM', LP', MD'.
  destruct (cut_off_spec alpha gamma _ _ Ha1 HM Hs Ht) as (m1 & k1 & th & E1 & EM & EI & BI & _ & _ & HT). fold Xs Xt in E1, EI, BI. rewrite E1 in E. injection E as -> ->.
  destruct (cut_off_spec alpha' gamma _ _ Ha2 HM Hs Ht) as (m2 & k2 & th' & E2 & EM' & EI' & BI' & _ & _ & HT'). fold Xs Xt in E2, EI', BI'. rewrite E2 in E'. injection E' as -> ->.
  set (pairs := set_pairs mask (length Xs) (length Xt)) in *. set (pairs' := set_pairs mask' (length Xs) (length Xt)) in *.
  assert (IP : forall i j, In (i, j) pairs <-> i < length Xs /\ j < length Xt /\ (th <= entry 0%R gamma i j)%R).
  { intros i j. unfold pairs. rewrite set_pairs_In, EM. split; intros (A & B & C); (split; [exact A|split; [exact B|]]); rewrite (entry_map _ 0%R false (length Xs) (length Xt)) in * by auto; now apply Rleb_iff. }
  assert (IP' : forall i j, In (i, j) pairs' <-> i < length Xs /\ j < length Xt /\ (th' <= entry 0%R gamma i j)%R).
  { intros i j. unfold pairs'. rewrite set_pairs_In, EM'. split; intros (A & B & C); (split; [exact A|split; [exact B|]]); rewrite (entry_map _ 0%R false (length Xs) (length Xt)) in * by auto; now apply Rleb_iff. }
  exists pairs, pairs'. split; [apply set_pairs_NoDup|]. split; [apply set_pairs_NoDup|]. split; [|split; [exact MD|exact MD']].
  assert (MI : (mi <= mi')%Z).
  { rewrite EI, EI'. apply py_int_mono. split; [apply Rmin_glb; [apply Rmult_le_pos; [lra|apply pos_INR]|apply (IZR_le 0); lia]|].
    apply Rle_min_compat_r, Rmult_le_compat_r; [apply pos_INR|lra]. }
  assert (TH : (th' <= th)%R).
  { destruct (Rle_lt_dec th' th) as [|C]; [assumption|]. exfalso.
    destruct (in_entry gamma _ _ th HM HT) as (i & j & Hi & Hj & Eij).
    assert (I : incl ((i, j) :: pairs') pairs).
    { intros [a c] [K|K]; [injection K as <- <-; apply IP; repeat split; auto; rewrite Eij; lra|]. apply IP' in K as (A & B & D). apply IP. repeat split; auto. lra. }
    assert (ND : NoDup ((i, j) :: pairs')). { constructor; [|apply set_pairs_NoDup]. intros K. apply IP' in K as (_ & _ & D). rewrite Eij in D. lra. }
    pose proof (NoDup_incl_length ND I). cbn [length] in *. lia. }
  intros [i j] K. apply IP in K as (A & B & C). apply IP'. repeat split; auto. lra.
Qed.

(** The score of MaNo as a whole, for estimators with predict_proba and for deep models whose normalisation is defined. *)
Theorem C225_mano : forall Row sign p q threshold est (X : list Row) y sda r r', (0 < p <= q)%R ->
  (forall pp A d P, est = inr pp -> pp A d = Ok P -> row_stochastic P) ->
  (forall infer A l, est = inl infer -> infer A = Ok l -> row_stochastic (mano_proba threshold l)) ->
  mano_score Row sign p threshold est X y sda = Ok r -> mano_score Row sign q threshold est X y sda = Ok r' ->
  exists s s', r = (sign * s)%R /\ r' = (sign * s')%R /\ (s <= s')%R.
Proof.
  intros Row sign p q threshold est X y sda r r' Hp Hr Hl H H'. unfold mano_score in *. destruct (Rleb p 0); [discriminate|]. destruct (Rleb q 0); [discriminate|].
  destruct (target_part Row X y sda) as [[[m Xt] sdt]|]; [|discriminate]. cbn [bind] in *. destruct (find_y_type1 y) as [[|]|]; try discriminate. cbn [bind] in *.
  match type of H with bind ?b _ = _ => destruct b as [P|] eqn:EP; [|discriminate] end. cbn [bind] in *. injection H as <-. injection H' as <-.
  exists (mano_aggregate p P), (mano_aggregate q P). split; [reflexivity|]. split; [reflexivity|]. apply C225_power; [exact Hp|].
  destruct est as [infer|pp]; [|exact (Hr pp _ _ _ eq_refl EP)]. apply bind_ok in EP as [l [El EP]]. injection EP as <-. exact (Hl infer _ _ eq_refl El).
Qed.
(** Each knob does something: with two targets and two classes of masses 1/2, 1/8, 1/4 and 3/8, threshold 0 keeps four samples and
    threshold 1/2 two of them; the power 2 gives more than the power 1. *)
Example C225_ex : (exists m, jdot_data [10; 20]%nat [[1/2; 1/8]; [1/4; 3/8]]%R [0; 1]%Z 0 = Ok ([10; 10; 20; 20]%nat, [0; 1; 0; 1]%Z, [1/2; 1/8; 1/4; 3/8]%R) /\
    jdot_data [10; 20]%nat [[1/2; 1/8]; [1/4; 3/8]]%R [0; 1]%Z (1/2) = Ok (select m [10; 10; 20; 20]%nat, select m [0; 1; 0; 1]%Z, select m [1/2; 1/8; 1/4; 3/8]%R) /\ m = [true; false; false; true]) /\
  (mano_aggregate 1 [[3/4; 1/4]]%R = 1/2 /\ mano_aggregate 1 [[3/4; 1/4]] < mano_aggregate 2 [[3/4; 1/4]])%R.
Proof.
  split.
  - exists [true; false; false; true].
    assert (MX : is_max (1/2) (concat [[1/2; 1/8]; [1/4; 3/8]]%R)). { split; [cbn; auto|]. repeat constructor; lra. }
    assert (MM : matrix (length [10; 20]%nat) (length [0; 1]%Z) [[1/2; 1/8]; [1/4; 3/8]]%R) by (split; [reflexivity|repeat constructor]).
    split; [|split; [|reflexivity]]; rewrite (jdot_data_ok _ _ _ _ (1/2)%R) by (auto; discriminate); cbn -[Rltb]; repeat match goal with |- context [Rltb ?a ?b] => 
      first [replace (Rltb a b) with true by (symmetry; apply Rltb_iff; lra) | replace (Rltb a b) with false by (symmetry; destruct (Rltb a b) eqn:E; [apply Rltb_iff in E; lra|reflexivity])] end; reflexivity.
  - assert (P1 : forall x, (0 < x)%R -> np_pow x 1 = x). { intros x Hx. unfold np_pow, Reqb. destruct (Req_EM_T x 0); [lra|]. now apply Rpower_1. }
    assert (P2 : forall x, (0 < x)%R -> np_pow x 2 = (x * x)%R). { intros x Hx. unfold np_pow, Reqb. destruct (Req_EM_T x 0); [lra|]. replace 2%R with (1 + 1)%R by lra. rewrite Rpower_plus, Rpower_1 by auto. reflexivity. }
    assert (A1 : mano_aggregate 1 [[3/4; 1/4]]%R = (1/2)%R).
    { unfold mano_aggregate. cbn [concat app map]. rewrite !P1 by lra. replace (mean [3/4; 1/4]%R) with (1/2)%R by (unfold mean; cbn; lra). replace (1/1)%R with 1%R by lra. apply P1. lra. }
    split; [exact A1|]. rewrite A1. unfold mano_aggregate. cbn [concat app map]. rewrite !P2 by lra. replace (mean _) with (5/16)%R by (unfold mean; cbn; lra).
    assert (S : (np_pow (5/16) (1/2) * np_pow (5/16) (1/2) = 5/16)%R).
    { unfold np_pow, Reqb. destruct (Req_EM_T (5/16) 0); [lra|]. rewrite <- Rpower_plus. replace (1/2 + 1/2)%R with 1%R by lra. apply Rpower_1. lra. }
    pose proof (pow_nonneg (5/16) (1/2)). nra.
Qed.
