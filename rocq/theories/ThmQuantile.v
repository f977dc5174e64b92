(** * C247: with one feature optimal transport matches quantiles *)
From Coq Require Import String List ZArith QArith Bool Arith Lia Reals Lra Qreals.
From Verif Require Import Np NpFacts Labels Spec SpecFacts UtilsModel UtilsSpec SelectModel RVec RVecFacts
  MapModel RMat OTModel OTSpec ThmJdot MapSpec MapProofs MapProofs2 ThmMap.
From Verif Require ThmRecal ThmKeepOrder ThmSame.
Import ListNotations.
Local Open Scope nat_scope.
Local Open Scope list_scope.
Notation reals := ThmRecal.reals.

(** ** Specification *)
(** The value of a row of one feature; the numbers and the shares of rows with a value below [v], and of those with a value of at most [v]. *)
Definition value (r : list R) : R := nth 0 r 0%R.
Definition n_below (v : R) (L : list (list R)) : nat := length (filter (fun r => Rltb (value r) v) L).
Definition n_upto (v : R) (L : list (list R)) : nat := length (filter (fun r => Rleb (value r) v) L).
Definition below (v : R) (L : list (list R)) : R := (INR (n_below v L) / INR (length L))%R.
Definition upto (v : R) (L : list (list R)) : R := (INR (n_upto v L) / INR (length L))%R.

(** ** Lemmas *)
Definition ind (b : bool) : R := if b then 1%R else 0%R.
Lemma ind_count (p : list R -> bool) L : msum (length L) (fun i => ind (p (nth i L []))) = INR (length (filter p L)).
Proof.
  induction L as [|r L IH] using rev_ind; [reflexivity|]. rewrite app_length. cbn [length]. rewrite Nat.add_1_r. cbn [msum].
  rewrite filter_app, app_length, plus_INR, <- IH.
  rewrite (msum_ext (length L) _ (fun i => ind (p (nth i L [])))) by (intros i Hi; now rewrite app_nth1).
  rewrite app_nth2, Nat.sub_diag by lia. cbn. destruct (p r); cbn; lra.
Qed.

Section Quantiles.
  Variables (G : list (list R)) (S T : list (list R)).
  Let n := length S. Let m := length T.
  Hypotheses (Hn : 0 < n) (Hm : 0 < m).
  Hypothesis OP : ThmRecal.optimal_plan (ThmRecal.sq_euclid 1) S T (repeat (/ INR n)%R n) (repeat (/ INR m)%R m) G.
  Lemma nonneg i j : i < n -> j < m -> (0 <= at2 G i j)%R.
  Proof. intros Hi Hj. destruct OP as ((_ & N & _) & _). rewrite !repeat_length in N. now apply N. Qed.
  Lemma rows i : i < n -> msum m (fun j => at2 G i j) = (/ INR n)%R.
  Proof. intros H. destruct OP as ((_ & _ & RS & _) & _). rewrite !repeat_length in RS. rewrite (RS i H). now apply ThmSame.nth_rep. Qed.
  Lemma cols j : j < m -> msum n (fun i => at2 G i j) = (/ INR m)%R.
  Proof. intros H. destruct OP as ((_ & _ & _ & CS) & _). rewrite !repeat_length in CS. rewrite (CS j H). now apply ThmSame.nth_rep. Qed.
  Lemma in_order i i' j j' : i < n -> i' < n -> j < m -> j' < m -> (0 < at2 G i j)%R -> (0 < at2 G i' j')%R ->
    (0 <= (value (nth i' S []) - value (nth i S [])) * (value (nth j' T []) - value (nth j T [])))%R.
  Proof.
    intros Hi Hi' Hj Hj' P P'. pose proof (ThmKeepOrder.support 1 n m G S T OP i i' j j' Hi Hi' Hj Hj' P P') as Q.
    cbn [msum] in Q. unfold ThmKeepOrder.x_, ThmKeepOrder.y_ in Q. unfold value. lra.
  Qed.
  (** If the pairs of [A] that carry mass are among those of [B], and (i, j) is in [B] only, then [B] carries the more mass. *)
  Lemma mass (A B : nat -> nat -> bool) i j : i < n -> j < m -> A i j = false -> B i j = true ->
    (forall i' j', i' < n -> j' < m -> A i' j' = true -> (0 < at2 G i' j')%R -> B i' j' = true) ->
    (msum n (fun i' => msum m (fun j' => ind (A i' j') * at2 G i' j')) + at2 G i j <= msum n (fun i' => msum m (fun j' => ind (B i' j') * at2 G i' j')))%R.
  Proof.
    intros Hi Hj FA TB AB.
    assert (E : at2 G i j = msum n (fun i' => msum m (fun j' => at2 G i' j' * ThmKeepOrder.at_ j j') * ThmKeepOrder.at_ i i')%R).
    { rewrite (ThmKeepOrder.msum_at n (fun i' => msum m (fun j' => at2 G i' j' * ThmKeepOrder.at_ j j')%R) i Hi). symmetry. exact (ThmKeepOrder.msum_at m (fun j' => at2 G i j') j Hj). }
    rewrite E, <- msum_plus. apply msum_le. intros i' Hi'. cbv beta. rewrite Rmult_comm, <- msum_scal, <- msum_plus. apply msum_le. intros j' Hj'. cbv beta.
    pose proof (nonneg i' j' Hi' Hj') as N. unfold ThmKeepOrder.at_. destruct (Nat.eqb_spec i' i) as [->|Ni]; [destruct (Nat.eqb_spec j' j) as [->|Nj]|].
    - rewrite FA, TB. cbn. lra.
    - destruct (A i j') eqn:EA; cbn; [|destruct (B i j'); cbn; lra]. destruct N as [N|N]; [|rewrite <- N; lra]. rewrite (AB i j' Hi' Hj' EA N). cbn. lra.
    - destruct (A i' j') eqn:EA; cbn; [|destruct (B i' j'); cbn; lra]. destruct N as [N|N]; [|rewrite <- N; lra]. rewrite (AB i' j' Hi' Hj' EA N). cbn. lra.
  Qed.
  Lemma mass_rows (p : list R -> bool) : msum n (fun i' => msum m (fun j' => ind (p (nth i' S [])) * at2 G i' j')%R) = (INR (length (filter p S)) / INR n)%R.
  Proof.
    rewrite (msum_ext n _ (fun i' => / INR n * ind (p (nth i' S [])))%R) by (intros i' Hi'; rewrite msum_scal, rows by auto; ring).
    rewrite msum_scal. unfold n. rewrite ind_count. unfold Rdiv. ring.
  Qed.
  Lemma mass_cols (q : list R -> bool) : msum n (fun i' => msum m (fun j' => ind (q (nth j' T [])) * at2 G i' j')%R) = (INR (length (filter q T)) / INR m)%R.
  Proof.
    rewrite msum_swap. rewrite (msum_ext m _ (fun j' => / INR m * ind (q (nth j' T [])))%R) by (intros j' Hj'; rewrite msum_scal, cols by auto; ring).
    rewrite msum_scal. unfold m. rewrite ind_count. unfold Rdiv. ring.
  Qed.
  Lemma quantiles i j : i < n -> j < m -> (0 < at2 G i j)%R ->
    (below (value (nth i S [])) S < upto (value (nth j T [])) T)%R /\ (below (value (nth j T [])) T < upto (value (nth i S [])) S)%R.
  Proof.
    intros Hi Hj P. split.
    - pose proof (mass (fun i' _ => Rltb (value (nth i' S [])) (value (nth i S []))) (fun _ j' => Rleb (value (nth j' T [])) (value (nth j T []))) i j Hi Hj) as Q. cbv beta in Q.
      rewrite (mass_rows (fun r => Rltb (value r) (value (nth i S [])))), (mass_cols (fun r => Rleb (value r) (value (nth j T [])))) in Q.
      unfold below, upto, n_below, n_upto. fold n m. eapply Rlt_le_trans; [|apply Q]; [lra| | |].
      + apply Rltb_false. lra.
      + apply Rleb_iff. lra.
      + intros i' j' Hi' Hj' A N. apply Rltb_iff in A. apply Rleb_iff. pose proof (in_order i i' j j' Hi Hi' Hj Hj' P N). nra.
    - pose proof (mass (fun _ j' => Rltb (value (nth j' T [])) (value (nth j T []))) (fun i' _ => Rleb (value (nth i' S [])) (value (nth i S []))) i j Hi Hj) as Q. cbv beta in Q.
      rewrite (mass_rows (fun r => Rleb (value r) (value (nth i S [])))), (mass_cols (fun r => Rltb (value r) (value (nth j T [])))) in Q.
      unfold below, upto, n_below, n_upto. fold n m. eapply Rlt_le_trans; [|apply Q]; [lra| | |].
      + apply Rltb_false. lra.
      + apply Rleb_iff. lra.
      + intros i' j' Hi' Hj' A N. apply Rltb_iff in A. apply Rleb_iff. pose proof (in_order i i' j j' Hi Hi' Hj Hj' P N). nra.
  Qed.
End Quantiles.

(** Every transported source is an average of targets, and each of these targets has a quantile of the source: fewer sources lie below
    the source than targets up to the target, in share, and the other way round. *)
Theorem C247_quantiles : forall tfit X y sda out, ThmRecal.barycentric 1 tfit ->
  usable true (a_len X) sda -> table X -> (forall l, y = Some l -> length l = a_len X) ->
  let sd := eff_domain (a_len X) sda in some_label is_source sd -> some_label is_target sd ->
  ot_fit_transform tfit X y sda = Ok out ->
  let S := reals (rows_of is_source sd (a_rows X)) in let T := reals (rows_of is_target sd (a_rows X)) in let S' := reals (rows_of is_source sd (a_rows out)) in
  length S' = length S /\ forall i, i < length S -> exists w : nat -> R,
    (forall j, j < length T -> (0 <= w j)%R) /\ msum (length T) w = 1%R /\ value (nth i S' []) = msum (length T) (fun j => w j * value (nth j T []))%R /\
    forall j, j < length T -> (0 < w j)%R ->
      (below (value (nth i S [])) S < upto (value (nth j T [])) T)%R /\ (below (value (nth j T [])) T < upto (value (nth i S [])) S)%R.
Proof.
  intros tfit X y sda out HB U TX Hy sd Hs Ht E S T S'.
  destruct (C40_ot_fit_transform tfit X y sda U Hy) as (F1 & F2). fold sd in F1.
  assert (EF := E). unfold ot_fit_transform in EF. apply bind_ok in EF as (tr & Etr & _). rewrite (F2 tr Etr) in E. clear F2. rewrite F1 in Etr. clear F1.
  destruct (HB _ _ _ _ _ Etr) as (G & o & OP & Eo & Dt & Tl & Len & Bar). clear HB Etr.
  destruct (C40_ot_transform true tr X sda U TX) as (m' & Em & _ & Tg & Sr & _). { intros _. exists o. auto. }
  rewrite E in Em. injection Em as <-. fold sd in Tg, Sr.
  assert (Ls : a_len (half is_source sd X) = length S) by (unfold a_len, half, S, ThmRecal.reals; cbn [a_rows]; now rewrite map_length).
  assert (Lt : a_len (half is_target sd X) = length T) by (unfold a_len, half, T, ThmRecal.reals; cbn [a_rows]; now rewrite map_length).
  assert (ES : S' = reals (a_rows o)) by (unfold S'; rewrite (Sr Hs o Eo); reflexivity).
  change (reals (a_rows (half is_source sd X))) with S in OP. change (reals (a_rows (half is_target sd X))) with T in OP, Bar. rewrite Ls, Lt in OP. rewrite Ls, Lt, <- ES in Bar.
  split. { rewrite ES, <- Ls, <- Len. unfold ThmRecal.reals, a_len. now rewrite map_length. }
  intros i Hi. assert (Pn : (0 < INR (length S))%R) by (apply lt_0_INR; lia).
  exists (fun j => INR (length S) * at2 G i j)%R. split; [|split; [|split]].
  - intros j Hj. apply Rmult_le_pos; [lra|]. now apply (nonneg G S T OP).
  - rewrite msum_scal, (rows G S T OP) by auto. field. lra.
  - unfold value. rewrite Bar by auto. cbn [seq map nth]. rewrite (rows G S T OP) by auto.
    rewrite (msum_ext (length T) (fun j => INR (length S) * at2 G i j * nth 0 (nth j T []) 0)%R (fun j => INR (length S) * (at2 G i j * nth 0 (nth j T []) 0))%R) by (intros; ring). rewrite msum_scal. field. lra.
  - intros j Hj P. apply (quantiles G S T); auto.
    apply Rmult_lt_reg_l with (INR (length S)); [auto|]. now rewrite Rmult_0_r.
Qed.

(** As many sources as targets, and no value twice on either side: the source of rank r is sent to the target of rank r. *)
Theorem C247_sorted : forall tfit X y sda out, ThmRecal.barycentric 1 tfit ->
  usable true (a_len X) sda -> table X -> (forall l, y = Some l -> length l = a_len X) ->
  let sd := eff_domain (a_len X) sda in some_label is_source sd -> some_label is_target sd ->
  ot_fit_transform tfit X y sda = Ok out ->
  let S := reals (rows_of is_source sd (a_rows X)) in let T := reals (rows_of is_target sd (a_rows X)) in let S' := reals (rows_of is_source sd (a_rows out)) in
  length S = length T -> NoDup (map value S) -> NoDup (map value T) ->
  forall i j, i < length S -> j < length T -> n_below (value (nth i S [])) S = n_below (value (nth j T [])) T -> value (nth i S' []) = value (nth j T []).
Proof.
  intros tfit X y sda out HB U TX Hy sd Hs Ht E S T S' L NS NT i j Hi Hj R.
  destruct (C247_quantiles tfit X y sda out HB U TX Hy Hs Ht E) as (_ & Q). fold sd in Q. fold S T S' in Q. destruct (Q i Hi) as (w & W0 & W1 & V & B). clear Q.
  assert (UP : forall K k, NoDup (map value K) -> k < length K -> n_upto (value (nth k K [])) K = Datatypes.S (n_below (value (nth k K [])) K)).
  { clear. intros K k ND Hk. unfold n_upto, n_below. set (v := value (nth k K [])). assert (I : In v (map value K)) by (apply in_map, nth_In, Hk). clearbody v. clear Hk k.
    induction K as [|r K IH]; [easy|]. cbn in ND, I. inversion ND as [|? ? NI ND']; subst. cbn [filter].
    destruct I as [<-|I].
    - replace (Rltb (value r) (value r)) with false by (symmetry; apply Rltb_false; lra). replace (Rleb (value r) (value r)) with true by (symmetry; apply Rleb_iff; lra). cbn [length]. f_equal.
      f_equal. apply filter_ext_in. intros z Hz. assert (D : value z <> value r) by (intros D; apply NI; rewrite <- D; now apply in_map).
      destruct (Rltb (value z) (value r)) eqn:A, (Rleb (value z) (value r)) eqn:C; auto; [apply Rltb_iff in A; apply Rleb_false in C; lra|apply Rltb_false in A; apply Rleb_iff in C; lra].
    - specialize (IH ND' I). assert (D : value r <> v) by (intros D; apply NI; now rewrite D).
      destruct (Rltb (value r) v) eqn:A, (Rleb (value r) v) eqn:C; cbn [length]; try lia; [apply Rltb_iff in A; apply Rleb_false in C; lra|apply Rltb_false in A; apply Rleb_iff in C; lra]. }
  assert (SAME : forall K k k', NoDup (map value K) -> k < length K -> k' < length K -> n_below (value (nth k K [])) K = n_below (value (nth k' K [])) K -> value (nth k K []) = value (nth k' K [])).
  { clear - UP. assert (LE : forall K k k', NoDup (map value K) -> k < length K -> k' < length K -> n_below (value (nth k K [])) K = n_below (value (nth k' K [])) K -> ~ (value (nth k K []) < value (nth k' K []))%R).
    { intros K k k' ND Hk Hk' E C. pose proof (UP K k ND Hk) as U. rewrite E in U.
      assert (X : n_upto (value (nth k K [])) K <= n_below (value (nth k' K [])) K); [|lia].
      clear - C. set (u := value (nth k K [])) in *. set (v := value (nth k' K [])) in *. clearbody u v. unfold n_upto, n_below.
      induction K as [|r K' IH]; [auto|]. cbn [filter].
      destruct (Rleb (value r) u) eqn:A, (Rltb (value r) v) eqn:B; cbn [length]; try lia. apply Rleb_iff in A. apply Rltb_false in B. lra. }
    intros K k k' ND Hk Hk' E. destruct (Rtotal_order (value (nth k K [])) (value (nth k' K []))) as [C|[C|C]]; auto; exfalso; [eapply (LE K k k')|eapply (LE K k' k)]; eauto. }
  assert (Pn : (0 < INR (length S))%R) by (apply lt_0_INR; lia).
  rewrite V. rewrite (msum_ext (length T) _ (fun j' => value (nth j T []) * w j')%R); [rewrite msum_scal; change (msum (length T) (fun j' => w j')) with (msum (length T) w); rewrite W1; ring|].
  intros j' Hj'. destruct (W0 j' Hj') as [P|P]; [|rewrite <- P; ring]. destruct (B j' Hj' P) as (B1 & B2). unfold below, upto in B1, B2. rewrite <- L in B1, B2.
  apply Rmult_lt_reg_r in B1; [|now apply Rinv_0_lt_compat]. apply Rmult_lt_reg_r in B2; [|now apply Rinv_0_lt_compat]. apply INR_lt in B1, B2.
  rewrite UP in B1, B2 by auto. rewrite (SAME T j' j NT Hj' Hj) by lia. ring.
Qed.

(** Sources 0 and 1, targets 13 and 10: 0 goes to 10 and 1 to 13. *)
Example C247_ex : exists out, ot_fit_transform ThmRecal.tfit13 (ThmRecal.col_of [0;1;13;10]%Z) None (SDArr [1;1;-2;-2]%Z) = Ok out /\
  value (nth 0 (reals (rows_of is_source [1;1;-2;-2]%Z (a_rows out))) []) = 10%R /\ value (nth 1 (reals (rows_of is_source [1;1;-2;-2]%Z (a_rows out))) []) = 13%R.
Proof.
  destruct ThmRecal.C193_mapping_ex as (A & B & C & D & _). eexists. split; [exact D|].
  assert (Q : forall a b : R, (a < b)%R -> Rltb a b = true) by (intros; now apply Rltb_iff).
  assert (Q' : forall a b : R, (b <= a)%R -> Rltb a b = false) by (intros; now apply Rltb_false).
  pose proof (C247_sorted ThmRecal.tfit13 (ThmRecal.col_of [0;1;13;10]%Z) None (SDArr [1;1;-2;-2]%Z) (ThmRecal.col_of [10;13;13;10]%Z) A B C ltac:(discriminate)) as F. cbv zeta in F.
  change (eff_domain (a_len (ThmRecal.col_of [0;1;13;10]%Z)) (SDArr [1;1;-2;-2]%Z)) with [1;1;-2;-2]%Z in F.
  specialize (F ltac:(exists 1%Z; split; [left; reflexivity|reflexivity]) ltac:(exists (-2)%Z; split; [right; right; left; reflexivity|reflexivity]) D).
  assert (ES : reals (rows_of is_source [1;1;-2;-2]%Z (a_rows (ThmRecal.col_of [0;1;13;10]%Z))) = [[0]; [1]]%R) by (cbn; unfold Q2R; cbn; repeat f_equal; lra).
  assert (ET : reals (rows_of is_target [1;1;-2;-2]%Z (a_rows (ThmRecal.col_of [0;1;13;10]%Z))) = [[13]; [10]]%R) by (cbn; unfold Q2R; cbn; repeat f_equal; lra).
  rewrite ES, ET in F. specialize (F eq_refl ltac:(cbn; repeat constructor; cbn; intuition lra) ltac:(cbn; repeat constructor; cbn; intuition lra)).
  split.
  - apply (F 0 1); [cbn; lia|cbn; lia|]. unfold n_below, value. cbn [nth filter]. rewrite (Q' 0%R 0%R), (Q' 1%R 0%R), (Q' 13%R 10%R), (Q' 10%R 10%R) by lra; reflexivity.
  - apply (F 1 0); [cbn; lia|cbn; lia|]. unfold n_below, value. cbn [nth filter]. rewrite (Q 0%R 1%R), (Q' 1%R 1%R), (Q' 13%R 13%R), (Q 10%R 13%R) by lra; reflexivity.
Qed.
