(** C208: what CORAL does for every value of reg; and C186, C187, C198, C200 for every value of reg. *)
From Coq Require Import List ZArith Bool Arith Lia Reals Lra Psatz Setoid Morphisms FunctionalExtensionality.
From Verif Require Import Np NpFacts RVec RVecFacts MapModel MapSpec MapProofs2 RMat CovModel CovSpec CovProofs ThmCov MongeModel MongeProofs ThmMonge TurnProofs ThmTurn ThmBack ThmSame ThmTwice CoralRegModel.
Import ListNotations.
Local Open Scope nat_scope.

(** ** Facts about the estimates *)
Lemma estimate_sym lw n m X reg b C : estimate_covariance lw n m X reg b = Ok C -> forall i j, C i j = C j i.
Proof.
  intros E i j. destruct reg as [| |s|]; cbn [estimate_covariance] in E.
  - injection E as <-. apply emp_cov_sym.
  - injection E as <-. unfold ledoit_wolf. rewrite (shrink_sym n _ _ (emp_cov_sym false m _) i j). ring.
  - unfold shrunk_covariance in E. destruct (Rleb 0 s && Rleb s 1); [|discriminate]. injection E as <-. apply shrink_sym. intros; apply emp_cov_sym.
  - discriminate.
Qed.
Definition diag (d : nat -> R) : mat := fun i j => if i =? j then d i else 0%R.
Lemma diag_mul n d e : meq n n (mmul n (diag d) (diag e)) (diag (fun i => d i * e i)%R).
Proof.
  intros i j Hi Hj. unfold mmul, diag. rewrite (msum_ext n _ (fun l => (if i =? l then 1 else 0) * (if l =? j then d i * e l else 0))%R) by (intros l _; destruct (i =? l), (l =? j); ring).
  assert (E : forall k g, msum k (fun l => (if i =? l then 1 else 0) * g l)%R = (if i <? k then g i else 0)%R).
  { induction k as [|k IH]; intros g; cbn [msum]; [reflexivity|]. rewrite IH. destruct (Nat.ltb_spec i k), (Nat.eqb_spec i k), (Nat.ltb_spec i (S k)); subst; try lia; ring. }
  rewrite (E n (fun l => if l =? j then d i * e l else 0)%R). destruct (Nat.ltb_spec i n); [reflexivity|lia].
Qed.
Lemma diag_sym d i j : diag d i j = diag d j i.
Proof. unfold diag. destruct (Nat.eqb_spec i j), (Nat.eqb_spec j i); subst; congruence. Qed.
Lemma diag_qf n d x : sigma n (fun i => sigma n (fun j => x i * diag d i j * x j))%R = msum n (fun i => d i * (x i * x i))%R.
Proof.
  rewrite sigma_msum. apply msum_ext. intros i Hi. rewrite sigma_msum.
  rewrite (msum_ext n _ (fun j => (if i =? j then 1 else 0) * (d i * (x i * x j)))%R) by (intros; unfold diag; destruct (i =? _); ring).
  assert (E : forall k g, msum k (fun l => (if i =? l then 1 else 0) * g l)%R = (if i <? k then g i else 0)%R).
  { induction k as [|k IH]; intros g; cbn [msum]; [reflexivity|]. rewrite IH. destruct (Nat.ltb_spec i k), (Nat.eqb_spec i k), (Nat.ltb_spec i (S k)); subst; try lia; ring. }
  rewrite (E n (fun j => d i * (x i * x j))%R). destruct (Nat.ltb_spec i n); [reflexivity|lia].
Qed.
Lemma diag_psd n d : (forall i, i < n -> (0 <= d i)%R) -> pos_semidef n (diag d).
Proof. intros H x. rewrite diag_qf. apply msum_nonneg. intros i Hi. apply Rmult_le_pos; [auto|apply Rle_0_sqr]. Qed.
Lemma diag_pd n d : (forall i, i < n -> (0 < d i)%R) -> pos_def n (diag d).
Proof.
  intros H x (i & Hi & Hx). rewrite diag_qf.
  assert (E : forall k, i < k -> k <= n -> (0 < msum k (fun i => d i * (x i * x i)))%R).
  { induction k as [|k IH]; intros L1 L2; [lia|]. cbn [msum]. assert (N : forall a, a < n -> (0 <= d a * (x a * x a))%R) by (intros a Ha; apply Rmult_le_pos; [left; auto|apply Rle_0_sqr]).
    destruct (Nat.eq_dec i k) as [<-|]; [|specialize (IH ltac:(lia) ltac:(lia)); specialize (N k ltac:(lia)); lra].
    assert (0 <= msum i (fun i => d i * (x i * x i)))%R by (apply msum_nonneg; intros a Ha; apply N; lia). assert (0 < d i * (x i * x i))%R by (apply Rmult_lt_0_compat; [apply H; lia|]; apply Rlt_0_sqr; exact Hx). lra. }
  apply E; auto.
Qed.
Section Diag.
  Variables (eigh : mat -> (nat -> R) * mat) (n : nat).
  Hypothesis HE : eigensolver n eigh.
  Lemma root_diag C d : (forall i j, C i j = C j i) -> (forall i, i < n -> (0 <= d i)%R) -> meq n n C (diag d) -> meq n n (sqrtm eigh n C) (diag (fun i => sqrt (d i))).
  Proof.
    intros S H E. apply (root_is eigh n HE); auto; [|intros; apply diag_sym|apply diag_psd; intros; apply sqrt_pos|].
    - apply (psd_meq n (diag d)); [now symmetry|]. now apply diag_psd.
    - rewrite diag_mul, E. intros i j Hi Hj. unfold diag. destruct (i =? j); auto. apply sqrt_sqrt. auto.
  Qed.
  Lemma invroot_diag C d : (forall i j, C i j = C j i) -> (forall i, i < n -> (0 < d i)%R) -> meq n n C (diag d) -> meq n n (invsqrtm eigh n C) (diag (fun i => / sqrt (d i))%R).
  Proof.
    intros S H E. assert (P : pos_def n C). { apply (pd_meq n (diag d)); [now symmetry|]. now apply diag_pd. }
    destruct (roots_inverse eigh n HE C S P) as (I1 & I2). rewrite <- (one_r n n (invsqrtm eigh n C)). 
    assert (D : meq n n (mmul n (sqrtm eigh n C) (diag (fun i => / sqrt (d i))%R)) delta).
    { rewrite (root_diag C d S) by (auto; intros; left; auto). rewrite diag_mul. intros i j Hi Hj. unfold diag, delta. destruct (i =? j); auto. field. apply Rgt_not_eq, sqrt_lt_R0; auto. }
    rewrite <- D, <- assoc. first [rewrite I1 | rewrite I2]. now rewrite one_l.
  Qed.
End Diag.

(** ** C208 *)
(** The variance of the features on average (about the mean, or about zero when the data are declared centred). *)
Definition spread (assume_centered : bool) (n m : nat) (X : mat) : R := (sigma n (fun j => if assume_centered then moment_of m X j j else cov_of m X j j) / INR n)%R.
Lemma spread_emp b n m X : (msum n (fun i => emp_cov b m X i i) / INR n)%R = spread b n m X.
Proof. unfold spread. f_equal. etransitivity; [|symmetry; apply sigma_msum]. apply msum_ext. intros i _. destruct b; [apply moment_emp|apply cov_emp]. Qed.
Lemma spread_nonneg b n m X : 0 < n -> 0 < m -> (0 <= spread b n m X)%R.
Proof.
  intros Hn Hm. rewrite <- spread_emp. apply Rmult_le_pos; [|left; apply Rinv_0_lt_compat, lt_0_INR; auto]. apply msum_nonneg. intros i Hi. unfold emp_cov.
  apply Rmult_le_pos; [|left; apply Rinv_0_lt_compat, lt_0_INR; auto]. apply msum_nonneg. intros a _. apply Rle_0_sqr.
Qed.
(** [reg=0] is [reg=None]. *)
Theorem C208_zero : forall lw eigh n ms mt Xs Xt b, coral_fit lw eigh n ms mt Xs Xt (ShNum 0) b = coral_fit lw eigh n ms mt Xs Xt ShNone b.
Proof.
  intros. unfold coral_fit. cbn [estimate_covariance]. unfold shrunk_covariance. rewrite (proj2 (Rleb_iff 0 0)), (proj2 (Rleb_iff 0 1)) by lra. cbn [andb bind].
  assert (E : forall m X, shrink n 0 (emp_cov b m X) = emp_cov b m X). { intros. apply functional_extensionality. intros i. apply functional_extensionality. intros j. unfold shrink. destruct (i =? j); ring. }
  now rewrite !E.
Qed.
(** [reg=1]: every source row, relative to the mean, is multiplied by one number, the ratio of the spreads; the spread is then that of the targets. *)
Theorem C208_one : forall lw eigh n ms mt Xs Xt b, eigensolver n eigh -> 0 < n -> 0 < ms -> 0 < mt -> (0 < spread b n ms Xs)%R ->
  exists W, coral_fit lw eigh n ms mt Xs Xt (ShNum 1) b = Ok W /\
  (forall c Z i j, j < n -> coral_rows b n c W Z i j = (sqrt (spread b n mt Xt / spread b n ms Xs) * (Z i j - (if b then 0 else c j)))%R) /\
  spread b n ms (coral_rows b n (mean_of ms Xs) W Xs) = spread b n mt Xt.
Proof.
  intros lw eigh n ms mt Xs Xt b HE Hn Hs Ht Ps. set (vs := spread b n ms Xs) in *. set (vt := spread b n mt Xt). assert (Pt : (0 <= vt)%R) by now apply spread_nonneg.
  unfold coral_fit. cbn [estimate_covariance]. unfold shrunk_covariance. rewrite (proj2 (Rleb_iff 0 1)), (proj2 (Rleb_iff 1 1)) by lra. cbn [andb bind]. eexists. split; [reflexivity|].
  assert (E : forall m X, shrink n 1 (emp_cov b m X) = diag (fun _ => spread b n m X)).
  { intros. apply functional_extensionality. intros i. apply functional_extensionality. intros j. unfold shrink, diag. rewrite spread_emp. destruct (i =? j); ring. }
  rewrite !E. fold vs vt. set (W := mmul n _ _).
  assert (HW : meq n n W (diag (fun _ => sqrt (vt / vs)))).
  { unfold W. rewrite (invroot_diag eigh n HE (diag (fun _ => vs)) (fun _ => vs)), (root_diag eigh n HE (diag (fun _ => vt)) (fun _ => vt)), diag_mul; try reflexivity; auto; try apply diag_sym.
    intros i j _ _. unfold diag. destruct (i =? j); auto. rewrite sqrt_div by auto. unfold Rdiv. ring. }
  assert (HR : forall c Z i j, j < n -> coral_rows b n c W Z i j = (sqrt (vt / vs) * (Z i j - (if b then 0 else c j)))%R).
  { intros c Z i j Hj. unfold coral_rows. set (Y := if b then Z else _). rewrite (mmul_ext n Y Y W (fun l k => sqrt (vt / vs) * delta l k)%R i j); auto.
    - unfold mmul. rewrite (msum_ext n _ (fun l => sqrt (vt / vs) * (Y i l * delta l j))%R) by (intros; ring). rewrite msum_scal. f_equal. change (mmul n Y delta i j = (Z i j - (if b then 0 else c j))%R). rewrite mmul_delta_r by auto. unfold Y. destruct b; ring.
    - intros l Hl. rewrite HW by auto. unfold diag, delta. destruct (l =? j); ring. }
  split; [exact HR|].
  assert (Q : (sqrt (vt / vs) * sqrt (vt / vs) = vt / vs)%R) by (apply sqrt_sqrt; apply Rmult_le_pos; [auto|left; now apply Rinv_0_lt_compat]).
  transitivity (vt / vs * vs)%R; [|field; lra]. rewrite <- Q. set (k := sqrt (vt / vs)) in *. unfold vs, spread at 1 2. change sigma with msum.
  assert (Nm : INR ms <> 0%R) by (apply not_0_INR; lia).
  assert (M : forall j, j < n -> mean_of ms (coral_rows b n (mean_of ms Xs) W Xs) j = (k * (mean_of ms Xs j - (if b then 0 else mean_of ms Xs j)))%R).
  { intros j Hj. transitivity (msum ms (fun i => k * (Xs i j - (if b then 0 else mean_of ms Xs j))) / INR ms)%R.
    - unfold mean_of at 1. change sigma with msum. f_equal. apply msum_ext. intros i _. now apply HR.
    - rewrite (msum_ext ms _ (fun i => k * Xs i j + (- k * (if b then 0 else mean_of ms Xs j)))%R) by (intros; ring). rewrite msum_plus, msum_scal, msum_const. unfold mean_of. change sigma with msum. destruct b; field; auto. }
  unfold Rdiv. rewrite (Rmult_comm (msum n _) (/ INR n)), (Rmult_comm (msum n _) (/ INR n)). rewrite <- Rmult_assoc, (Rmult_comm (k * k)), Rmult_assoc. f_equal. rewrite <- msum_scal. apply msum_ext. intros j Hj. destruct b.
  - unfold moment_of. change sigma with msum. unfold Rdiv. rewrite <- Rmult_assoc. f_equal. rewrite <- msum_scal. apply msum_ext. intros i _. rewrite HR by auto. ring.
  - unfold cov_of. change sigma with msum. unfold Rdiv. rewrite <- Rmult_assoc. f_equal. rewrite <- msum_scal. apply msum_ext. intros i _. rewrite HR, (M j) by auto. ring.
Qed.
(** [reg="auto"] when Ledoit-Wolf shrinks fully: every feature is rescaled on its own, by the ratio of the standard deviations. *)
Theorem C208_auto_full : forall lw eigh n ms mt Xs Xt b, eigensolver n eigh -> 0 < n -> 0 < ms -> 0 < mt -> all_vary n ms Xs -> all_vary n mt Xt -> (forall m X, lw n m X = 1%R) ->
  exists W, coral_fit lw eigh n ms mt Xs Xt ShAuto b = Ok W /\
  (forall c Z i j, j < n -> coral_rows b n c W Z i j = (sqrt (cov_of mt Xt j j / cov_of ms Xs j j) * (Z i j - (if b then 0 else c j)))%R).
Proof.
  intros lw eigh n ms mt Xs Xt b HE Hn Hs Ht Vs Vt HL. unfold coral_fit. cbn [estimate_covariance bind]. eexists. split; [reflexivity|].
  assert (VN : forall m X j, 0 < m -> (0 <= cov_of m X j j)%R). { intros m X j Hm. unfold cov_of. apply Rmult_le_pos; [|left; apply Rinv_0_lt_compat, lt_0_INR; auto]. change sigma with msum. apply msum_nonneg. intros; apply Rle_0_sqr. }
  assert (E : forall m X, 0 < m -> all_vary n m X -> meq n n (fun j l => scale_ m X j * ledoit_wolf lw n m (standard_scaler (negb b) m X) j l * scale_ m X l)%R (diag (fun j => cov_of m X j j))).
  { intros m X Hm V j l Hj Hl. unfold ledoit_wolf, shrink. rewrite HL. rewrite (msum_ext n _ (fun _ => 1%R)) by (intros i Hi; apply standard_var; [auto|apply V; auto]). rewrite msum_const. unfold diag.
    destruct (Nat.eqb_spec j l) as [<-|]; [|ring]. assert (S : (scale_ m X j * scale_ m X j = cov_of m X j j)%R). { unfold scale_. change (emp_cov false m X j j) with (cov_of m X j j). destruct (Reqb _ 0) eqn:R0; [apply Reqb_iff in R0; destruct (V j Hj R0)|]. apply sqrt_sqrt. auto. }
    rewrite <- S. field. apply not_0_INR. lia. }
  set (W := mmul n _ _).
  assert (HW : meq n n W (diag (fun j => sqrt (cov_of mt Xt j j / cov_of ms Xs j j)))).
  { unfold W. rewrite (invroot_diag eigh n HE _ (fun j => cov_of ms Xs j j)), (root_diag eigh n HE _ (fun j => cov_of mt Xt j j)), diag_mul; auto.
    - intros i j Hi _. unfold diag. destruct (i =? j); auto. rewrite sqrt_div; [unfold Rdiv; ring|auto|]. specialize (VN ms Xs i Hs). specialize (Vs i Hi). lra.
    - intros i j. unfold ledoit_wolf. rewrite (shrink_sym n _ _ (emp_cov_sym false mt _) i j). ring.
    - intros i j. unfold ledoit_wolf. rewrite (shrink_sym n _ _ (emp_cov_sym false ms _) i j). ring.
    - intros i Hi. specialize (VN ms Xs i Hs). specialize (Vs i Hi). lra. }
  intros c Z i j Hj. unfold coral_rows. set (Y := if b then Z else _). rewrite (mmul_ext n Y Y W (fun l k => sqrt (cov_of mt Xt j j / cov_of ms Xs j j) * delta l k)%R i j); auto.
  - unfold mmul. rewrite (msum_ext n _ (fun l => sqrt (cov_of mt Xt j j / cov_of ms Xs j j) * (Y i l * delta l j))%R) by (intros; ring). rewrite msum_scal. f_equal. change (mmul n Y delta i j = (Z i j - (if b then 0 else c j))%R). rewrite mmul_delta_r by auto. unfold Y. destruct b; ring.
  - intros l Hl. rewrite HW by auto. unfold diag, delta. destruct (Nat.eqb_spec l j) as [->|]; ring.
Qed.
(** [reg=None]: the matching of C86. *)
Theorem C208_none : forall lw eigh n ms mt Xs Xt b, exists W, coral_fit lw eigh n ms mt Xs Xt ShNone b = Ok W /\
  forall Z i j, coral_rows b n (mean_of ms Xs) W Z i j = coral_map_source eigh b n ms mt Xs Xt Z i j.
Proof. intros. eexists. split; [reflexivity|]. intros Z i j. unfold coral_rows, coral_map_source. rewrite mmul_assoc. reflexivity. Qed.

(** ** C200 for every value of [reg] *)
Theorem C200_coral_reg : forall lw eigh n ms mt Xs Xt reg b Cs Ct W V, eigensolver n eigh ->
  estimate_covariance lw n ms Xs reg b = Ok Cs -> estimate_covariance lw n mt Xt reg b = Ok Ct -> pos_def n Cs -> pos_def n Ct ->
  coral_fit lw eigh n ms mt Xs Xt reg b = Ok W -> coral_fit lw eigh n mt ms Xt Xs reg b = Ok V ->
  forall Z i j, j < n -> let Y := coral_rows b n (mean_of ms Xs) W Z in
  coral_rows b n (mean_of mt Xt) V (if b then Y else fun i j => Y i j + mean_of mt Xt j)%R i j = (if b then Z i j else Z i j - mean_of ms Xs j)%R.
Proof.
  intros lw eigh n ms mt Xs Xt reg b Cs Ct W V HE Es Et Ps Pt EW EV Z i j Hj Y. unfold coral_fit in EW, EV. rewrite Es, Et in EW, EV. cbn [bind] in EW, EV. injection EW as <-. injection EV as <-.
  set (Z' := if b then Z else fun i j => (Z i j - mean_of ms Xs j)%R). transitivity (Z' i j); [|unfold Z'; now destruct b].
  rewrite <- (there_and_back eigh n Cs Ct Z' i j HE (estimate_sym _ _ _ _ _ _ _ Es) (estimate_sym _ _ _ _ _ _ _ Et) Ps Pt Hj).
  unfold coral_rows at 1. rewrite <- mmul_assoc. apply mmul_ext; auto. intros l Hl. apply mmul_ext; auto. intros k Hk. rewrite (mmul_assoc n n Z'). unfold Y, coral_rows, Z'. destruct b; [reflexivity|ring].
Qed.

(** ** C186 for every value of [reg] *)
Lemma rows_delta b n c W : meq n n W delta -> forall Z i j, j < n -> coral_rows b n c W Z i j = (Z i j - (if b then 0 else c j))%R.
Proof.
  intros H Z i j Hj. unfold coral_rows. rewrite (mmul_ext n _ (if b then Z else fun i j => (Z i j - c j)%R) W delta i j); auto. rewrite mmul_delta_r by auto. destruct b; ring.
Qed.
Lemma fit_same lw eigh n ms mt Xs Xt reg b Cs Ct W : eigensolver n eigh ->
  estimate_covariance lw n ms Xs reg b = Ok Cs -> estimate_covariance lw n mt Xt reg b = Ok Ct -> pos_def n Cs -> meq n n Cs Ct -> coral_fit lw eigh n ms mt Xs Xt reg b = Ok W -> meq n n W delta.
Proof.
  intros HE Es Et P E EW. unfold coral_fit in EW. rewrite Es, Et in EW. cbn [bind] in EW. injection EW as <-. apply whiten_same; eauto using estimate_sym.
Qed.
(** A number: equal covariances, or second moments when the data are declared centred, are enough. *)
Theorem C186_coral_number : forall lw eigh n ms mt Xs Xt s (b : bool) W, eigensolver n eigh -> 0 < ms -> 0 < mt -> (0 < s <= 1)%R ->
  let second := fun (m : nat) (X : mat) (j l : nat) => if b then moment_of m X j l else cov_of m X j l in
  (exists j, j < n /\ second ms Xs j j <> 0%R) -> (forall j l, j < n -> l < n -> second ms Xs j l = second mt Xt j l) ->
  coral_fit lw eigh n ms mt Xs Xt (ShNum s) b = Ok W ->
  forall Z i j, j < n -> coral_rows b n (mean_of ms Xs) W Z i j = (if b then Z i j else Z i j - mean_of ms Xs j)%R.
Proof.
  intros lw eigh n ms mt Xs Xt s b W HE Hs Ht S second HV E EW Z i j Hj.
  assert (ES : forall m X j l, second m X j l = emp_cov b m X j l) by (intros; unfold second; destruct b; [symmetry; apply moment_emp|symmetry; apply cov_emp]).
  transitivity (Z i j - (if b then 0 else mean_of ms Xs j))%R; [|destruct b; ring]. apply rows_delta; auto.
  assert (EE : forall m X, estimate_covariance lw n m X (ShNum s) b = Ok (shrink n s (emp_cov b m X))).
  { intros. cbn [estimate_covariance]. unfold shrunk_covariance. rewrite (proj2 (Rleb_iff 0 s)), (proj2 (Rleb_iff s 1)) by lra. reflexivity. }
  apply (fit_same lw eigh n ms mt Xs Xt (ShNum s) b _ _ W HE (EE _ _) (EE _ _)); auto.
  - intros v Hv. rewrite qf_sigma. apply shrink_pd; auto. destruct HV as (k & Hk & HV). exists k. now rewrite <- ES.
  - intros a c Ha Hc. unfold shrink. rewrite <- !ES, (E a c) by auto. rewrite (msum_ext n (fun i => emp_cov b ms Xs i i) (fun i => emp_cov b mt Xt i i)); auto. intros k Hk. now rewrite <- !ES, (E k k).
Qed.
(** "auto", and any value of [reg]: the same data on both sides. *)
Theorem C186_coral_reg : forall lw eigh n m X reg b C W, eigensolver n eigh -> estimate_covariance lw n m X reg b = Ok C -> pos_def n C ->
  coral_fit lw eigh n m m X X reg b = Ok W -> forall Z i j, j < n -> coral_rows b n (mean_of m X) W Z i j = (if b then Z i j else Z i j - mean_of m X j)%R.
Proof.
  intros lw eigh n m X reg b C W HE EC P EW Z i j Hj. transitivity (Z i j - (if b then 0 else mean_of m X j))%R; [|destruct b; ring]. apply rows_delta; auto.
  apply (fit_same lw eigh n m m X X reg b C C W HE EC EC P); auto. reflexivity.
Qed.

(** ** C187 for a number *)
Lemma trace_conj n Q A : meq n n (mmul n Q (mT Q)) delta -> msum n (fun i => conj n Q A i i) = msum n (fun i => A i i).
Proof.
  intros Q2. unfold conj. transitivity (msum n (fun k => mmul n (mmul n Q (mT Q)) A k k)).
  - transitivity (msum n (fun k => mmul n Q (mmul n (mT Q) A) k k)); [|apply msum_ext; intros; now rewrite mmul_assoc].
    unfold mmul at 1 3. rewrite msum_swap. apply msum_ext. intros k _. apply msum_ext. intros; ring.
  - apply msum_ext. intros k Hk. rewrite (mmul_ext n _ delta A A k k); auto. now rewrite mmul_delta_l.
Qed.
Lemma shrink_turned n s t Q C C' : meq n n (mmul n (mT Q) Q) delta -> meq n n (mmul n Q (mT Q)) delta -> meq n n C' (sc (t * t) (conj n Q C)) ->
  meq n n (shrink n s C') (sc (t * t) (conj n Q (shrink n s C))).
Proof.
  intros Q1 Q2 E. set (mu := (msum n (fun i => C i i) / INR n)%R).
  assert (T : (msum n (fun i => C' i i) / INR n = t * t * mu)%R).
  { rewrite (msum_ext n _ (fun i => (t * t) * conj n Q C i i)%R) by (intros i Hi; rewrite E; auto). rewrite msum_scal, trace_conj by auto. unfold mu, Rdiv. ring. }
  assert (D : forall i j, i < n -> j < n -> conj n Q (shrink n s C) i j = ((1 - s) * conj n Q C i j + s * mu * delta i j)%R).
  { intros i j Hi Hj. rewrite <- (Q1 i j Hi Hj). unfold conj. unfold mmul at 1 3 5. rewrite <- !msum_scal, <- msum_plus. apply msum_ext. intros k Hk.
    assert (X : mmul n (mT Q) (shrink n s C) i k = ((1 - s) * mmul n (mT Q) C i k + s * mu * mT Q i k)%R).
    { rewrite <- (mmul_delta_r n (mT Q) i k Hk). unfold mmul. rewrite <- !msum_scal, <- msum_plus. apply msum_ext. intros l _. unfold shrink. fold mu. unfold delta. destruct (l =? k); ring. }
    rewrite X. ring. }
  intros i j Hi Hj. unfold sc. rewrite D by auto. unfold shrink. rewrite T, (E i j Hi Hj). unfold sc, delta. destruct (i =? j); ring.
Qed.
Theorem C187_coral_number : forall lw eigh n s Q r ms mt Xs Xt c d Z W W', eigensolver n eigh -> (0 < s)%R -> orthogonal n Q -> 0 < ms -> 0 < mt -> (0 < r <= 1)%R ->
  (exists j, j < n /\ cov_of ms Xs j j <> 0%R) ->
  coral_fit lw eigh n ms mt Xs Xt (ShNum r) false = Ok W -> coral_fit lw eigh n ms mt (moved n s Q c Xs) (moved n s Q d Xt) (ShNum r) false = Ok W' ->
  forall i j, j < n -> coral_rows false n (mean_of ms (moved n s Q c Xs)) W' (moved n s Q c Z) i j = moved n s Q (fun _ => 0%R) (coral_rows false n (mean_of ms Xs) W Z) i j.
Proof.
  intros lw eigh n s Q r ms mt Xs Xt c d Z W W' HE Hs HQ Hms Hmt Hr HV EW EW' i j Hj. destruct (orthogonal_meq n Q HQ) as (Q1 & Q2). rewrite (moved_affine n s Q (fun _ => 0%R)). rewrite Rplus_0_r.
  unfold coral_fit in EW, EW'. cbn [estimate_covariance] in EW, EW'. unfold shrunk_covariance in EW, EW'. rewrite (proj2 (Rleb_iff 0 r)), (proj2 (Rleb_iff r 1)) in EW, EW' by lra. cbn [andb bind] in EW, EW'. injection EW as <-. injection EW' as <-.
  unfold coral_rows. rewrite <- mmul_assoc.
  transitivity (mmul n (mmul n (mmul n (fun i k => (Z i k - mean_of ms Xs k)%R) (sc s Q)) (invsqrtm eigh n (shrink n r (emp_cov false ms (moved n s Q c Xs))))) (sqrtm eigh n (shrink n r (emp_cov false mt (moved n s Q d Xt)))) i j).
  - apply mmul_ext; auto. intros l Hl. apply mmul_ext; auto. intros a Ha. exact (centred_moved n s Q c ms Xs Z i a Hms).
  - transitivity (mmul n (mmul n (mmul n (fun i k => (Z i k - mean_of ms Xs k)%R) (invsqrtm eigh n (shrink n r (emp_cov false ms Xs)))) (sqrtm eigh n (shrink n r (emp_cov false mt Xt)))) (sc s Q) i j).
    2:{ apply mmul_ext; auto. intros l Hl. now rewrite mmul_assoc. }
    apply (turn_out n s Q (S i)); auto.
    + apply invroot_turned; auto; try (intros; apply shrink_sym; intros; apply emp_cov_sym).
      * intros v Hv. rewrite qf_sigma. apply shrink_pd; auto.
      * apply shrink_turned; auto. now apply cov_moved.
    + apply root_turned; auto; try (intros; apply shrink_sym; intros; apply emp_cov_sym).
      * intros v. rewrite qf_sigma. apply shrink_psd; auto. lra.
      * apply shrink_turned; auto. now apply cov_moved.
Qed.

(** ** Examples *)
(** Sources 0 and 2, targets 0 and 6: the spreads are 1 and 9, and the factor is 3. *)
Example C208_ex : eigensolver 1 eigh1 /\ spread false 1 2 (two 0 2) = 1%R /\ spread false 1 2 (two 0 6) = 9%R /\ all_vary 1 2 (two 0 2) /\ all_vary 1 2 (two 0 6) /\
  exists W, coral_fit (fun _ _ _ => 1%R) eigh1 1 2 2 (two 0 2) (two 0 6) (ShNum 1) false = Ok W /\ coral_rows false 1 (mean_of 2 (two 0 2)) W (two 0 2) 1 0 = 3%R.
Proof.
  assert (HE : eigensolver 1 eigh1) by apply C185_ex. assert (S1 : spread false 1 2 (two 0 2) = 1%R) by (unfold spread, cov_of, mean_of; cbn; field). assert (S2 : spread false 1 2 (two 0 6) = 9%R) by (unfold spread, cov_of, mean_of; cbn; field).
  split; [exact HE|]. split; [exact S1|]. split; [exact S2|]. split; [intros j Hj; unfold cov_of, mean_of; cbn; lra|]. split; [intros j Hj; unfold cov_of, mean_of; cbn; lra|].
  destruct (C208_one (fun _ _ _ => 1%R) eigh1 1 2 2 (two 0 2) (two 0 6) false HE) as (W & EW & H & _); [lia..|rewrite S1; lra|]. exists W. split; [exact EW|].
  rewrite H by lia. rewrite S1, S2. replace (9 / 1)%R with (3 * 3)%R by field. rewrite sqrt_square by lra. unfold mean_of. cbn. field.
Qed.
(** A number of C186, C187 and C200: the data of C186_coral_ex vary. *)
Example C186_coral_number_ex : (exists j, j < 1 /\ cov_of 2 (two 0 2) j j <> 0%R) /\ (forall j l, j < 1 -> l < 1 -> cov_of 2 (two 0 2) j l = cov_of 2 (two 5 7) j l).
Proof. split; [exists 0; split; [lia|]; unfold cov_of, mean_of; cbn; lra|apply C186_coral_ex]. Qed.
