(** * C226: close samples are treated alike *)
From Coq Require Import String List ZArith QArith Bool Arith Lia Reals Lra Psatz.
From Verif Require Import Np NpFacts Labels Spec SpecFacts UtilsModel UtilsSpec UtilsProofs UtilsProofs2 SelectModel RVec RVecFacts
  ReweightModel ReweightSpec ReweightProofs ReweightProofs2 ThmReweight MapModel MapSpec MapProofs MapProofs2 ThmMap MongeModel RMat ThmCoord.
Import ListNotations.
Local Open Scope nat_scope.
Local Open Scope list_scope.

(** ** Specification *)
Definition distance (d : nat) (x y : point) : R := sqrt (sqdist d x y).
(** A number, or a point with [k] coordinates, computed from a point with [d] coordinates: moving the point by a little moves the
    result by at most [K] times as much. *)
Definition steady (d : nat) (K : R) (f : point -> R) : Prop := forall x y, (Rabs (f x - f y) <= K * distance d x y)%R.
Definition steady_map (d k : nat) (K : R) (f : point -> point) : Prop := forall x y, (distance k (f x) (f y) <= K * distance d x y)%R.

(** ** Cauchy-Schwarz and the triangle inequality *)
Lemma msum_add k f g : msum k (fun i => f i + g i)%R = (msum k f + msum k g)%R.
Proof. induction k as [|k IH]; cbn [msum]; [lra|]. rewrite IH. lra. Qed.
Lemma msum_times k c f : msum k (fun i => c * f i)%R = (c * msum k f)%R.
Proof. induction k as [|k IH]; cbn [msum]; [lra|]. rewrite IH. lra. Qed.
Lemma msum_eq k f g : (forall i, i < k -> f i = g i) -> msum k f = msum k g.
Proof. induction k as [|k IH]; intros H; cbn [msum]; [reflexivity|]. rewrite IH by (intros; apply H; lia). now rewrite H by lia. Qed.
Lemma msum_pos k f : (forall i, i < k -> (0 <= f i)%R) -> (0 <= msum k f)%R.
Proof. induction k as [|k IH]; intros H; cbn [msum]; [lra|]. pose proof (H k ltac:(lia)). specialize (IH (fun i Hi => H i ltac:(lia))). lra. Qed.
Lemma msum_mono k f g : (forall i, i < k -> (f i <= g i)%R) -> (msum k f <= msum k g)%R.
Proof. induction k as [|k IH]; intros H; cbn [msum]; [lra|]. pose proof (H k ltac:(lia)). specialize (IH (fun i Hi => H i ltac:(lia))). lra. Qed.
Lemma cs k u v : ((msum k (fun i => u i * v i)) * (msum k (fun i => u i * v i)) <= msum k (fun i => u i * u i) * msum k (fun i => v i * v i))%R.
Proof.
  set (A := msum k (fun i => (u i * u i)%R)). set (B := msum k (fun i => (u i * v i)%R)). set (C := msum k (fun i => (v i * v i)%R)).
  assert (P : forall t, (0 <= A + 2 * t * B + t * t * C)%R).
  { intros t. replace (A + 2 * t * B + t * t * C)%R with (msum k (fun i => (u i + t * v i) * (u i + t * v i))%R); [apply msum_pos; intros i _; apply Rle_0_sqr|].
    rewrite (msum_eq k _ (fun i => (u i * u i + (2 * t) * (u i * v i)) + (t * t) * (v i * v i))%R) by (intros; lra).
    rewrite msum_add, (msum_add k (fun i => u i * u i)%R), !msum_times. reflexivity. }
  assert (PC : (0 <= C)%R) by (apply msum_pos; intros i _; apply Rle_0_sqr).
  destruct (Req_dec C 0) as [E|N].
  - rewrite E in *. destruct (Req_dec B 0) as [->|NB]; [lra|]. exfalso. specialize (P (- (A + 1) / (2 * B))%R). replace (A + 2 * (- (A + 1) / (2 * B)) * B + - (A + 1) / (2 * B) * (- (A + 1) / (2 * B)) * 0)%R with (-1)%R in P by (field; lra). lra.
  - assert (0 < C)%R by lra. specialize (P (- B / C)%R). replace (A + 2 * (- B / C) * B + - B / C * (- B / C) * C)%R with (A - B * B / C)%R in P by (field; lra).
    apply (Rmult_le_reg_r (/ C)); [now apply Rinv_0_lt_compat|]. rewrite (Rmult_assoc A), Rinv_r by lra. unfold Rdiv in P. lra.
Qed.
Lemma sqdist_pos d x y : (0 <= sqdist d x y)%R.
Proof. apply msum_pos. intros i _. apply Rle_0_sqr. Qed.
Lemma distance_pos d x y : (0 <= distance d x y)%R.
Proof. apply sqrt_pos. Qed.
Lemma distance_sym d x y : distance d x y = distance d y x.
Proof. unfold distance. f_equal. apply msum_eq. intros; lra. Qed.
Lemma sqrt_below a t : (0 <= t)%R -> (a <= t * t)%R -> (sqrt a <= t)%R.
Proof. intros Ht H. rewrite <- (sqrt_square t Ht). destruct (Rle_lt_dec 0 a) as [P|P]; [now apply sqrt_le_1_alt|]. rewrite sqrt_neg_0 by lra. apply sqrt_pos. Qed.
Lemma triangle d x y z : (distance d x z <= distance d x y + distance d y z)%R.
Proof.
  unfold distance. set (a := sqdist d x y). set (b := sqdist d y z). assert (Pa : (0 <= a)%R) by apply sqdist_pos. assert (Pb : (0 <= b)%R) by apply sqdist_pos.
  pose proof (sqrt_pos a). pose proof (sqrt_pos b). apply sqrt_below; [lra|].
  set (c := msum d (fun i => (x i - y i) * (y i - z i))%R).
  assert (E : sqdist d x z = (a + 2 * c + b)%R).
  { unfold sqdist. rewrite (msum_eq d _ (fun i => ((x i - y i) * (x i - y i) + 2 * ((x i - y i) * (y i - z i))) + (y i - z i) * (y i - z i))%R) by (intros; lra).
    rewrite msum_add, (msum_add d (fun i => (x i - y i) * (x i - y i))%R), msum_times. reflexivity. }
  assert (K : (c * c <= a * b)%R) by apply cs.
  assert (L : (c <= sqrt a * sqrt b)%R). { rewrite <- sqrt_mult by auto. destruct (Rle_lt_dec c 0); [pose proof (sqrt_pos (a * b)); lra|]. rewrite <- (sqrt_square c) by lra. apply sqrt_le_1_alt. exact K. }
  pose proof (sqrt_sqrt a Pa). pose proof (sqrt_sqrt b Pb). nra.
Qed.

(** ** Gaussian kernels *)
Lemma exp_below u : (1 - exp (- u) <= u)%R.
Proof. destruct (Req_dec u 0) as [->|N]; [rewrite Ropp_0, exp_0; lra|]. pose proof (exp_ineq1 (- u) ltac:(lra)). lra. Qed.
Lemma bump s : (0 <= s)%R -> (s * exp (- (s * s)) <= 1 / 2)%R.
Proof.
  intros Hs. assert (E : (1 + s * s <= exp (s * s))%R). { destruct (Req_dec (s * s) 0) as [->|N]; [rewrite exp_0; lra|]. left. apply exp_ineq1. exact N. }
  rewrite exp_Ropp. pose proof (exp_pos (s * s)). apply (Rmult_le_reg_r (exp (s * s))); [auto|]. rewrite Rmult_assoc, Rinv_l by lra. pose proof (Rle_0_sqr (s - 1)) as Q. unfold Rsqr in Q. lra.
Qed.
Lemma rise v : (0 <= v)%R -> (1 - exp (- (v * v)) <= v)%R.
Proof. intros Hv. destruct (Rle_lt_dec v 1); [pose proof (exp_below (v * v)); nra|]. pose proof (exp_pos (- (v * v))). lra. Qed.
Lemma bell_le g a b : (0 <= g)%R -> (0 <= a <= b)%R -> (exp (- (g * (a * a))) - exp (- (g * (b * b))) <= 2 * sqrt g * (b - a))%R.
Proof.
  intros Hg H. set (q := sqrt g). assert (Q : (q * q = g)%R) by (apply sqrt_sqrt; auto). assert (Pq : (0 <= q)%R) by apply sqrt_pos. set (h := (b - a)%R). assert (Hh : (0 <= h)%R) by (unfold h; lra).
  rewrite <- Q. replace b with (a + h)%R by (unfold h; lra). set (s := (q * a)%R). set (v := (q * h)%R).
  assert (Ps : (0 <= s)%R) by (unfold s; nra). assert (Pv : (0 <= v)%R) by (unfold v; nra).
  replace (- (q * q * (a * a)))%R with (- (s * s))%R by (unfold s; ring).
  replace (- (q * q * ((a + h) * (a + h))))%R with (- (s * s) + (- (2 * s * v) + - (v * v)))%R by (unfold s, v; ring).
  rewrite !exp_plus. replace (2 * q * h)%R with (2 * v)%R by (unfold v; ring).
  set (A := exp (- (s * s))). set (B := exp (- (2 * s * v))). set (C := exp (- (v * v))).
  assert (A1 : (0 < A <= 1)%R). { split; [apply exp_pos|]. unfold A. rewrite <- exp_0. destruct (Req_dec (s * s) 0) as [->|]; [rewrite Ropp_0; lra|]. left. apply exp_increasing. nra. }
  assert (C1 : (0 < C <= 1)%R). { split; [apply exp_pos|]. unfold C. rewrite <- exp_0. destruct (Req_dec (v * v) 0) as [->|]; [rewrite Ropp_0; lra|]. left. apply exp_increasing. nra. }
  pose proof (exp_below (2 * s * v)) as U. fold B in U. pose proof (rise v Pv) as W. fold C in W. pose proof (bump s Ps) as S. fold A in S.
  assert (B0 : (0 < B)%R) by apply exp_pos.
  (* A (1 - B C) = A (1 - B) C + A (1 - C) *)
  assert (T1 : (A * (1 - B) * C <= v)%R).
  { apply Rle_trans with (A * (2 * s * v))%R; [|nra]. apply Rle_trans with (A * (2 * s * v) * C)%R.
    - apply Rmult_le_compat_r; [lra|]. apply Rmult_le_compat_l; lra.
    - assert (0 <= A * (2 * s * v))%R by (repeat apply Rmult_le_pos; lra). nra. }
  assert (T2 : (A * (1 - C) <= v)%R) by nra.
  nra.
Qed.
Lemma bell g a b : (0 <= g)%R -> (0 <= a)%R -> (0 <= b)%R -> (Rabs (exp (- (g * (a * a))) - exp (- (g * (b * b)))) <= 2 * sqrt g * Rabs (a - b))%R.
Proof.
  intros Hg Ha Hb. pose proof (sqrt_pos g).
  assert (M : forall p q, (0 <= p <= q)%R -> (exp (- (g * (q * q))) <= exp (- (g * (p * p))))%R).
  { intros p q H0. destruct (Req_dec (g * (p * p)) (g * (q * q))) as [->|N]; [lra|]. left. apply exp_increasing. assert (p * p <= q * q)%R by nra. nra. }
  destruct (Rle_lt_dec a b) as [L|L].
  - pose proof (bell_le g a b Hg ltac:(lra)). pose proof (M a b ltac:(lra)). rewrite (Rabs_left1 (a - b)) by lra. rewrite Rabs_right by lra. lra.
  - pose proof (bell_le g b a Hg ltac:(lra)). pose proof (M b a ltac:(lra)). rewrite (Rabs_right (a - b)) by lra. rewrite Rabs_left1 by lra. lra.
Qed.
Lemma rbf_steady d g c : (0 <= g)%R -> steady d (2 * sqrt g) (fun x => rbf d g x c).
Proof.
  intros Hg x y. unfold rbf. assert (E : forall z, exp (- g * sqdist d z c) = exp (- (g * (distance d z c * distance d z c)))).
  { intros z. unfold distance. rewrite sqrt_sqrt by apply sqdist_pos. f_equal. lra. }
  rewrite !E. eapply Rle_trans; [apply bell; auto using distance_pos|]. apply Rmult_le_compat_l; [pose proof (sqrt_pos g); lra|].
  pose proof (triangle d x y c). pose proof (triangle d y x c). rewrite (distance_sym d y x) in *. apply Rabs_le. lra.
Qed.
(** A combination of Gaussians. *)
Lemma expansion_steady d g (a : list R) : (0 <= g)%R -> forall C, steady d (2 * sqrt g * vsum (map Rabs a)) (fun x => dot (map (rbf d g x) C) a).
Proof.
  intros Hg. pose proof (sqrt_pos g). induction a as [|t a IH]; intros [|c C] x y; cbn [map vsum]; try (rewrite ?dot_nil_r; unfold dot; cbn [map map2 vsum]; pose proof (distance_pos d x y)).
  - rewrite Rminus_0_r, Rabs_R0. nra.
  - rewrite Rminus_0_r, Rabs_R0. nra.
  - rewrite Rminus_0_r, Rabs_R0. pose proof (Rabs_pos t). assert (0 <= vsum (map Rabs a))%R by (apply vsum_nonneg, Forall_map, Forall_forall; intros; apply Rabs_pos). assert (0 <= 2 * sqrt g * (Rabs t + vsum (map Rabs a)))%R by nra. nra.
  - fold (dot (map (rbf d g x) C) a). fold (dot (map (rbf d g y) C) a). specialize (IH C x y). cbv beta in IH. pose proof (rbf_steady d g c Hg x y) as Q. cbv beta in Q.
    replace (rbf d g x c * t + dot (map (rbf d g x) C) a - (rbf d g y c * t + dot (map (rbf d g y) C) a))%R with (t * (rbf d g x c - rbf d g y c) + (dot (map (rbf d g x) C) a - dot (map (rbf d g y) C) a))%R by ring.
    eapply Rle_trans; [apply Rabs_triang|]. rewrite Rabs_mult. pose proof (Rabs_pos t). assert (Rabs t * Rabs (rbf d g x c - rbf d g y c) <= Rabs t * (2 * sqrt g * distance d x y))%R by (apply Rmult_le_compat_l; auto). lra.
Qed.

Lemma kernel_sum_dot {Row} (kern : Row -> Row -> R) x : forall a C, kernel_sum kern a C x = dot (map (kern x) C) a.
Proof. unfold kernel_sum, dot. induction a as [|t a IH]; intros [|c C]; try reflexivity. cbn [map map2 vsum]. now rewrite IH. Qed.
Theorem C226_kliep : forall d g alpha centers, (0 <= g)%R -> exists f, steady d (2 * sqrt g * vsum (map Rabs alpha)) f /\
  forall X sda w, kliep_weights point (rbf d g) (alpha, centers) X sda = Ok w ->
    let sd := eff_domain (length X) sda in rows_of is_source sd w = map f (rows_of is_source sd X).
Proof.
  intros d g alpha centers Hg. exists (fun x => dot (map (rbf d g x) centers) alpha). split; [apply expansion_steady; exact Hg|].
  intros X sda w H sd. etransitivity; [exact (proj1 (proj2 (C34_kliep point (rbf d g) alpha centers X sda w H)))|]. apply map_ext. intros x. apply kernel_sum_dot.
Qed.
(** KMM for samples other than those of the fit, and for all samples with smooth_weights. *)
Theorem C226_kmm : forall d g ws Xs, (0 <= g)%R -> length ws = length Xs -> exists f, steady d (2 * sqrt g * vsum (map Rabs ws)) f /\
  forall rows_eqb smooth X sda w, (forall A B : list point, rows_eqb A B = true -> A = B) ->
    kmm_weights point rows_eqb (rbf d g) smooth (ws, Xs) X sda = Ok w ->
    let sd := eff_domain (length X) sda in rows_eqb Xs (rows_of is_source sd X) = false \/ smooth = true -> rows_of is_source sd w = map f (rows_of is_source sd X).
Proof.
  intros d g ws Xs Hg L. exists (fun x => dot (map (rbf d g x) Xs) ws). split; [apply expansion_steady; exact Hg|].
  intros reb smooth X sda w Hr H sd E. etransitivity; [exact (proj1 (proj2 (proj2 (C34_kmm point reb (rbf d g) smooth ws Xs X sda w Hr L H) E)))|]. apply map_ext. intros x. apply kernel_sum_dot.
Qed.
(** The coordinates given by transfer component analysis and transfer joint matching to samples other than those of the fit. *)
Theorem C226_kernel_maps : forall d g V Xs Xt, (0 <= g)%R -> exists fs, length fs = length V /\
  (forall k, k < length V -> steady d (2 * sqrt g * vsum (map Rabs (nth k V []))) (nth k fs (fun _ => 0%R))) /\
  forall (eqb : list point -> list point -> bool) X sda allow, (forall a b, eqb a b = true <-> a = b) -> usable allow (length X) sda ->
    let sd := eff_domain (length X) sda in (rows_of is_source sd X <> Xs \/ rows_of is_target sd X <> Xt) ->
    kernel_transform point (rbf d g) eqb allow Xs Xt V X sda = Ok (map (fun x => map (fun f => f x) fs) X).
Proof.
  intros d g V Xs Xt Hg. exists (map (fun v x => dot (map (rbf d g x) (Xs ++ Xt)) v) V). split; [apply map_length|]. split.
  - intros k Hk. rewrite (nth_indep _ _ ((fun v x => dot (map (rbf d g x) (Xs ++ Xt)) v) [])) by (now rewrite map_length). rewrite (map_nth (fun v x => dot (map (rbf d g x) (Xs ++ Xt)) v)). now apply expansion_steady.
  - intros eqb X sda allow He U sd N. rewrite (C41_kernel_new_data point (rbf d g) eqb V Xs Xt X sda allow He U N). f_equal. apply map_ext. intros x. unfold kernel_image. now rewrite map_map.
Qed.

(** ** Affine maps *)
Definition frobenius (n m : nat) (B : mat) : R := sqrt (msum m (fun j => msum n (fun l => B l j * B l j))%R).
Lemma affine_steady n m B f : (forall x y j, j < m -> (f x j - f y j)%R = msum n (fun l => (x l - y l) * B l j)%R) -> steady_map n m (frobenius n m B) f.
Proof.
  intros H x y. unfold distance, frobenius. set (S := msum m _). assert (PS : (0 <= S)%R) by (apply msum_pos; intros; apply msum_pos; intros; apply Rle_0_sqr).
  rewrite <- sqrt_mult by (auto; apply sqdist_pos). apply sqrt_le_1_alt. unfold sqdist at 1. unfold S. rewrite Rmult_comm, <- msum_times. apply msum_mono. intros j Hj. rewrite !(H x y j Hj).
  exact (cs n (fun l => (x l - y l)%R) (fun l => B l j)).
Qed.
Theorem C226_coral : forall eigh centred n ms mt Xs Xt, exists K f, steady_map n n K f /\
  forall Z i j, j < n -> coral_map_source eigh centred n ms mt Xs Xt Z i j = f (Z i) j.
Proof.
  intros eigh centred n ms mt Xs Xt. set (P := invsqrtm eigh n (emp_cov centred ms Xs)). set (Q := sqrtm eigh n (emp_cov centred mt Xt)).
  exists (frobenius n n (mmul n P Q)), (fun x => coral_map_source eigh centred n ms mt Xs Xt (fun _ => x) 0). split; [|intros Z i j Hj; unfold coral_map_source, mmul; destruct centred; reflexivity].
  apply affine_steady. intros x y j Hj. unfold coral_map_source. cbv zeta. fold P Q. rewrite !(mmul_assoc n n). unfold mmul at 1 3.
  set (B := mmul n P Q). 
  transitivity (msum n (fun l => (if centred then x l else (x l - col_mean ms Xs l)%R) * B l j)%R + (-1) * msum n (fun l => (if centred then y l else (y l - col_mean ms Xs l)%R) * B l j))%R.
  { destruct centred; lra. }
  rewrite <- msum_times, <- msum_add. apply msum_eq. intros l Hl. destruct centred; lra.
Qed.
Theorem C226_monge : forall n maps k, exists K f, steady_map n n K f /\
  forall X Y i j, mlm_transform_num n maps k X = Ok Y -> j < n -> Y i j = f (X i) j.
Proof.
  intros n maps k. unfold mlm_transform_num. destruct (dict_getitem Z.eqb k maps) as [[A b]|e]; cbn [bind fst snd].
  - exists (frobenius n n A), (fun x j => msum n (fun l => x l * A l j) + b j)%R. split; [|intros X Y i j H _; injection H as <-; reflexivity].
    apply affine_steady. intros x y j Hj. transitivity (msum n (fun l => x l * A l j) + (-1) * msum n (fun l => y l * A l j))%R; [lra|]. rewrite <- msum_times, <- msum_add. apply msum_eq. intros; lra.
  - exists 1%R, (fun x => x). split; [intros x y; lra|]. discriminate.
Qed.
(** ** Nearest-neighbour weights: two sources at any distance e up to 1/2, one gets both targets, the other none *)
Theorem C226_nearest_refuted : forall e, (0 < e <= 1/2)%R ->
  nn_weights R (nearest_of (fun x y => Rabs (x - y))) false [0; e; 1; 1]%R (SDArr [1; 1; -2; -2]%Z) = Ok [0; 2; 1; 1]%R.
Proof.
  intros e He.
  assert (N : nearest_of (fun x y => Rabs (x - y)) [0; e]%R [1; 1]%R = Ok [1; 1]).
  { assert (A : np_argmin (map (fun y => Rabs (1 - y)) [0; e]%R) = Ok 1).
    { cbn [map np_argmin argmin_aux]. rewrite !Rabs_right by lra. unfold Rltb. destruct (Rlt_dec (1 - e) (1 - 0)); [reflexivity|lra]. }
    unfold nearest_of. cbn [mapM]. rewrite A. reflexivity. }
  unfold nn_weights, nn_get_weights. cbn -[nearest_of INR]. change (Pos.to_nat 3) with 3. change (Pos.to_nat 2) with 2. cbn -[nearest_of INR]. rewrite N. cbn -[INR].
  f_equal. repeat apply (f_equal2 (@cons R)); try reflexivity; cbn; lra.
Qed.

(** ** The hypotheses are met: a fitted KLIEP whose two centres carry weights 1 and -3 gives two new sources weights at most [8 sqrt 4 = 16] times their distance apart *)
Example C226_ex : exists w, kliep_weights point (rbf 1 4) ([1; -3]%R, [fun _ => 0%R; fun _ => 1%R]) [fun _ => 2%R; fun _ => 5%R; fun _ => (9/4)%R] (SDArr [1; -2; 3]%Z) = Ok w /\
  length w = 3 /\ nth 1 w 1%R = 0%R /\ (Rabs (nth 0 w 0 - nth 2 w 0) <= 4)%R.
Proof.
  destruct (C226_kliep 1 4 [1; -3]%R [fun _ => 0%R; fun _ => 1%R] ltac:(lra)) as (f & Hf & H).
  assert (E : exists w, kliep_weights point (rbf 1 4) ([1; -3]%R, [fun _ => 0%R; fun _ => 1%R]) [fun _ => 2%R; fun _ => 5%R; fun _ => (9/4)%R] (SDArr [1; -2; 3]%Z) = Ok w).
  { unfold kliep_weights. cbn -[rbf]. eexists. reflexivity. }
  destruct E as [w E]. exists w. split; [exact E|]. pose proof (H _ _ _ E) as Q. cbv zeta in Q. pose proof (proj1 (C34_kliep _ _ _ _ _ _ _ E)) as L. pose proof (proj2 (proj2 (C34_kliep _ _ _ _ _ _ _ E))) as T.
  cbn in L. destruct w as [|a [|b [|c [|? ?]]]]; try discriminate L. split; [reflexivity|].
  cbn in Q, T. inversion T as [|? ? T1 T2]; subst. split; [cbn; auto|]. cbn [nth]. injection Q as -> ->.
  eapply Rle_trans; [apply Hf|]. 
  assert (D : distance 1 (fun _ => 2%R) (fun _ => (9/4)%R) = (1/4)%R). { unfold distance, sqdist. cbn. replace (0 + (2 - 9/4) * (2 - 9/4))%R with ((1/4) * (1/4))%R by lra. apply sqrt_square. lra. }
  rewrite D. replace 4%R with (2 * 2)%R at 1 by lra. rewrite sqrt_square by lra. cbn [map vsum]. rewrite (Rabs_right 1) by lra. rewrite (Rabs_left1 (-3)) by lra. lra.
Qed.
