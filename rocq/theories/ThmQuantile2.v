(** * C247, continued: label propagation on one feature goes by rank *)
From Coq Require Import String List ZArith QArith Bool Arith Lia Reals Lra Qreals.
From Verif Require Import Np NpFacts Labels Spec SpecFacts UtilsModel UtilsSpec SelectModel RVec RVecFacts
  MapModel RMat OTModel OTSpec ThmJdot ThmOT ThmQuantile.
From Verif Require ThmRecal ThmSame ThmPath.
Import ListNotations.
Local Open Scope nat_scope.
Local Open Scope list_scope.

(** ** Lemmas *)
Lemma upto_below K k : NoDup (map value K) -> k < length K -> n_upto (value (nth k K [])) K = S (n_below (value (nth k K [])) K).
Proof.
  intros ND Hk. unfold n_upto, n_below. set (v := value (nth k K [])). assert (I : In v (map value K)) by (apply in_map, nth_In, Hk). clearbody v. clear Hk k.
  induction K as [|r K IH]; [easy|]. cbn in ND, I. inversion ND as [|? ? NI ND']; subst. cbn [filter].
  destruct I as [<-|I].
  - replace (Rltb (value r) (value r)) with false by (symmetry; apply Rltb_false; lra). replace (Rleb (value r) (value r)) with true by (symmetry; apply Rleb_iff; lra). cbn [length]. f_equal.
    f_equal. apply filter_ext_in. intros z Hz. assert (D : value z <> value r) by (intros D; apply NI; rewrite <- D; now apply in_map).
    destruct (Rltb (value z) (value r)) eqn:A, (Rleb (value z) (value r)) eqn:C; auto; [apply Rltb_iff in A; apply Rleb_false in C; lra|apply Rltb_false in A; apply Rleb_iff in C; lra].
  - specialize (IH ND' I). assert (D : value r <> v) by (intros D; apply NI; now rewrite D).
    destruct (Rltb (value r) v) eqn:A, (Rleb (value r) v) eqn:C; cbn [length]; try lia; [apply Rltb_iff in A; apply Rleb_false in C; lra|apply Rltb_false in A; apply Rleb_iff in C; lra].
Qed.
Lemma rank_not_lt K k k' : NoDup (map value K) -> k < length K -> k' < length K -> n_below (value (nth k K [])) K = n_below (value (nth k' K [])) K -> ~ (value (nth k K []) < value (nth k' K []))%R.
Proof.
  intros ND Hk Hk' E C. pose proof (upto_below K k ND Hk) as U. rewrite E in U.
  assert (X : n_upto (value (nth k K [])) K <= n_below (value (nth k' K [])) K); [|lia].
  clear - C. set (u := value (nth k K [])) in *. set (v := value (nth k' K [])) in *. clearbody u v. unfold n_upto, n_below.
  induction K as [|r K' IH]; [auto|]. cbn [filter].
  destruct (Rleb (value r) u) eqn:A, (Rltb (value r) v) eqn:B; cbn [length]; try lia. apply Rleb_iff in A. apply Rltb_false in B. lra.
Qed.
Lemma same_rank K k k' : NoDup (map value K) -> k < length K -> k' < length K -> n_below (value (nth k K [])) K = n_below (value (nth k' K [])) K -> k = k'.
Proof.
  intros ND Hk Hk' E. assert (V : value (nth k K []) = value (nth k' K [])).
  { pose proof (rank_not_lt K k k' ND Hk Hk' E). pose proof (rank_not_lt K k' k ND Hk' Hk (eq_sym E)). lra. }
  apply (proj1 (NoDup_nth (map value K) (value [])) ND); rewrite ?map_length; auto. now rewrite !map_nth.
Qed.

(** The plan moves nothing but the source of the same rank to a target. *)
Lemma by_rank G S T i j : 0 < length S -> length S = length T -> NoDup (map value S) -> NoDup (map value T) ->
  ThmRecal.optimal_plan (ThmRecal.sq_euclid 1) S T (repeat (/ INR (length S))%R (length S)) (repeat (/ INR (length T))%R (length T)) G ->
  i < length S -> j < length T -> n_below (value (nth i S [])) S = n_below (value (nth j T [])) T ->
  (0 < at2 G i j)%R /\ forall i', i' < length S -> i' <> i -> at2 G i' j = 0%R.
Proof.
  intros Hs L NS NT OP Hi Hj R.
  assert (Pn : (0 < INR (length S))%R) by (apply lt_0_INR; lia).
  assert (ONLY : forall i', i' < length S -> (0 < at2 G i' j)%R -> i' = i).
  { intros i' Hi' P. destruct (quantiles G S T OP i' j Hi' Hj P) as (B1 & B2). unfold below, upto in B1, B2. rewrite <- L in B1, B2.
    apply Rmult_lt_reg_r in B1; [|now apply Rinv_0_lt_compat]. apply Rmult_lt_reg_r in B2; [|now apply Rinv_0_lt_compat]. apply INR_lt in B1, B2.
    rewrite upto_below in B1, B2 by auto. apply (same_rank S); auto. lia. }
  split.
  - destruct (ThmPath.pos_in_sum (length S) (fun i' => at2 G i' j)) as (i' & Hi' & P).
    + rewrite (cols G S T OP j Hj). apply Rinv_0_lt_compat. rewrite <- L. exact Pn.
    + now rewrite <- (ONLY i' Hi' P).
  - intros i' Hi' N. destruct (nonneg G S T OP i' j Hi' Hj) as [P|P]; [|auto]. now apply ONLY in P.
Qed.
Lemma in_pairs {A} (ys : list A) (G : list (list R)) d p : length ys = length G -> In p (combine ys G) -> exists i, i < length ys /\ p = (nth i ys d, nth i G []).
Proof.
  intros L I. destruct (In_nth _ _ (d, []) I) as (i & Hi & E). rewrite combine_length, <- L, Nat.min_id in Hi. exists i. split; [auto|]. rewrite <- E. now apply combine_nth.
Qed.
Lemma vsum_zero l : Forall (fun x => x = 0%R) l -> vsum l = 0%R.
Proof. induction 1 as [|x l -> _ IH]; cbn; [reflexivity|rewrite IH; lra]. Qed.
Lemma vsum_one l x : Forall (fun x => 0 <= x)%R l -> In x l -> (x <= vsum l)%R.
Proof. induction 1 as [|z l P F IH]; [easy|]. intros [->|I]; cbn; [pose proof (vsum_nonneg l F); lra|specialize (IH I); lra]. Qed.

(** ** Theorems *)
(** Classes: as many sources as targets and no value twice; the target of rank r gets the label of the source of rank r. *)
Theorem C247_labels : forall plan X (y : list Z) sd G, (forall Xs Xt a b G, plan Xs Xt a b = Ok G -> ThmRecal.optimal_plan (ThmRecal.sq_euclid 1) Xs Xt a b G) ->
  length X = length sd -> length y = length sd ->
  let S := rows_of is_source sd X in let T := rows_of is_target sd X in 0 < length S -> length S = length T -> NoDup (map value S) -> NoDup (map value T) ->
  plan S T (repeat (/ INR (length S))%R (length S)) (repeat (/ INR (length T))%R (length T)) = Ok G ->
  exists out, otlp_discrete plan X y None sd = Ok out /\ length (rows_of is_target sd out) = length T /\
  forall i j, i < length S -> j < length T -> n_below (value (nth i S [])) S = n_below (value (nth j T [])) T ->
    nth j (rows_of is_target sd out) 0%Z = nth i (rows_of is_source sd y) 0%Z.
Proof.
  intros plan X y sd G HP LX Ly S T Hs L NS NT EG. pose proof (HP _ _ _ _ _ EG) as OP.
  assert (Ls : length S = how_many is_source sd) by (apply rows_of_length; auto). assert (Lt : length T = how_many is_target sd) by (apply rows_of_length; auto).
  assert (LG : length G = length S) by (destruct OP as (((LG & _) & _) & _); now rewrite repeat_length in LG).
  assert (Lys : length (rows_of is_source sd y) = length S) by (rewrite Ls; apply rows_of_length; auto).
  destruct (C52_discrete_labels plan X y None sd G) as (labels & out & E & (_ & _ & LT) & LL & H); auto; try congruence.
  - intros Q. rewrite Q in Ls. change (how_many is_source []) with 0 in Ls. rewrite Ls in Hs. lia.
  - cbn [opt_rows proportions]. rewrite <- Ls, <- Lt. exact EG.
  - exists out. split; [exact E|]. rewrite LT. split; [lia|]. intros i j Hi Hj RK. specialize (H j ltac:(lia)). destruct H as (Ic & Hc & _).
    destruct (by_rank G S T i j Hs L NS NT OP Hi Hj RK) as (P & Z0). set (ys := rows_of is_source sd y) in *. set (c := nth j labels 0%Z) in *.
    destruct (Z.eq_dec c (nth i ys 0%Z)) as [Q|Q]; [exact Q|exfalso].
    assert (M0 : mass_of G ys c j = 0%R).
    { unfold mass_of. apply vsum_zero. apply Forall_forall. intros x Hx. apply in_map_iff in Hx as (p & <- & Ip). apply filter_In in Ip as (Ip & Ep). apply Z.eqb_eq in Ep.
      destruct (in_pairs ys G 0%Z p ltac:(lia) Ip) as (i' & Hi' & ->). cbn [fst snd] in *. apply Z0; [lia|]. intros ->. auto. }
    assert (M1 : (at2 G i j <= mass_of G ys (nth i ys 0%Z) j)%R).
    { unfold mass_of. apply vsum_one.
      - apply Forall_forall. intros x Hx. apply in_map_iff in Hx as (p & <- & Ip). apply filter_In in Ip as (Ip & _). destruct (in_pairs ys G 0%Z p ltac:(lia) Ip) as (i' & Hi' & ->). cbn [snd]. apply (nonneg G S T OP); lia.
      - apply in_map_iff. exists (nth i ys 0%Z, nth i G []). split; [reflexivity|]. apply filter_In. split; [|apply Z.eqb_refl]. rewrite <- (combine_nth ys G i 0%Z []) by lia. apply nth_In. rewrite combine_length. lia. }
    specialize (Hc (nth i ys 0%Z) ltac:(apply nth_In; lia)). lra.
Qed.
(** Numbers. *)
Theorem C247_numbers : forall plan X (y : list R) sd G, (forall Xs Xt a b G, plan Xs Xt a b = Ok G -> ThmRecal.optimal_plan (ThmRecal.sq_euclid 1) Xs Xt a b G) ->
  length X = length sd -> length y = length sd ->
  let S := rows_of is_source sd X in let T := rows_of is_target sd X in 0 < length S -> length S = length T -> NoDup (map value S) -> NoDup (map value T) ->
  plan S T (repeat (/ INR (length S))%R (length S)) (repeat (/ INR (length T))%R (length T)) = Ok G ->
  exists out, otlp_regression plan X y None sd = Ok out /\ length (rows_of is_target sd out) = length T /\
  forall i j, i < length S -> j < length T -> n_below (value (nth i S [])) S = n_below (value (nth j T [])) T ->
    nth j (rows_of is_target sd out) None = Some (nth i (rows_of is_source sd y) 0%R).
Proof.
  intros plan X y sd G HP LX Ly S T Hs L NS NT EG. pose proof (HP _ _ _ _ _ EG) as OP.
  assert (Ls : length S = how_many is_source sd) by (apply rows_of_length; auto). assert (Lt : length T = how_many is_target sd) by (apply rows_of_length; auto).
  assert (LG : length G = length S) by (destruct OP as (((LG & _) & _) & _); now rewrite repeat_length in LG).
  assert (Lys : length (rows_of is_source sd y) = length S) by (rewrite Ls; apply rows_of_length; auto).
  destruct (C52_regression_labels plan X y None sd G) as (out & E & (_ & _ & LT)); auto; try congruence.
  - intros Q. rewrite Q in Ls. change (how_many is_source []) with 0 in Ls. rewrite Ls in Hs. lia.
  - cbn [opt_rows proportions]. rewrite <- Ls, <- Lt. exact EG.
  - exists out. split; [exact E|]. rewrite LT. split; [rewrite map_length, seq_length; lia|]. intros i j Hi Hj RK.
    destruct (by_rank G S T i j Hs L NS NT OP Hi Hj RK) as (P & Z0). set (ys := rows_of is_source sd y) in *.
    set (f := fun j => Some (moved_label G ys (proportions (how_many is_target sd) (opt_rows is_target sd (@None (list R)))) j)).
    rewrite (nth_indep _ None (f 0)) by (rewrite map_length, seq_length; lia). rewrite (map_nth f), seq_nth by lia. cbn [plus]. unfold f. f_equal. unfold moved_label. cbn [opt_rows proportions]. rewrite <- Lt.
    rewrite ThmSame.nth_rep by auto. rewrite (map_ext_in _ (fun p => nth i ys 0 * nth j (snd p) 0)%R).
    + assert (V : forall l : list (R * list R), vsum (map (fun p => nth i ys 0 * nth j (snd p) 0)%R l) = (nth i ys 0 * vsum (map (fun p => nth j (snd p) 0) l))%R).
      { induction l as [|p l IH]; cbn; [ring|rewrite IH; ring]. }
      rewrite V. assert (W : vsum (map (fun p : R * list R => nth j (snd p) 0%R) (combine ys G)) = msum (length S) (fun i' => at2 G i' j)).
      { rewrite <- LG. assert (K : length ys = length G) by lia. clearbody ys. clear - K. revert ys K. induction G as [|g G IH]; intros [|a ys] K; try discriminate; [reflexivity|]. cbn [combine map vsum length snd]. rewrite ThmJdot.msum_S. cbn [at2 nth]. injection K as K. rewrite (IH ys K). reflexivity. }
      rewrite W, (cols G S T OP j Hj). field. apply not_0_INR. lia.
    + intros p Ip. destruct (in_pairs ys G 0%R p ltac:(lia) Ip) as (i' & Hi' & ->). cbn [fst snd]. destruct (Nat.eq_dec i' i) as [->|N]; [reflexivity|].
      change (nth j (nth i' G []) 0%R) with (at2 G i' j). rewrite (Z0 i' ltac:(lia) N). ring.
Qed.

(** ** Example *)
(** Sources 0 and 1 with labels 7 and 3, targets 13 and 10: 13 gets 3 and 10 gets 7. *)
Definition rows_dec (A B : list (list R)) : {A = B} + {A <> B} := list_eq_dec (list_eq_dec Req_EM_T) A B.
Definition plan13 (Xs Xt : list (list R)) (a b : list R) : res (list (list R)) :=
  if rows_dec (Xs ++ Xt ++ [a; b]) [[0]; [1]; [13]; [10]; [/2; /2]; [/2; /2]]%R then if length Xs =? 2 then Ok ThmRecal.crossed else Err ValueError else Err ValueError.
Lemma plan13_exact Xs Xt a b G : plan13 Xs Xt a b = Ok G -> ThmRecal.optimal_plan (ThmRecal.sq_euclid 1) Xs Xt a b G.
Proof.
  unfold plan13. destruct rows_dec as [E|]; [|discriminate]. destruct (Nat.eqb_spec (length Xs) 2) as [L|]; [|discriminate]. intros [= <-].
  destruct Xs as [|x [|x' []]]; try discriminate. destruct Xt as [|z [|z' Xt]]; cbn in E; try discriminate. injection E as -> -> -> -> E.
  destruct Xt as [|u Xt]; [|apply (f_equal (@length _)) in E; cbn in E; rewrite app_length in E; cbn in E; lia]. injection E as -> ->. exact ThmRecal.crossed_optimal.
Qed.
Example C247_labels_ex : exists out, otlp_discrete plan13 [[0]; [1]; [13]; [10]]%R [7; 3; -1; -1]%Z None [1; 1; -2; -2]%Z = Ok out /\ rows_of is_target [1; 1; -2; -2]%Z out = [3; 7]%Z.
Proof.
  assert (Q : forall a b : R, (a < b)%R -> Rltb a b = true) by (intros; now apply Rltb_iff).
  assert (Q' : forall a b : R, (b <= a)%R -> Rltb a b = false) by (intros; now apply Rltb_false).
  assert (E2 : (/ INR 2 = / 2)%R) by (cbn; f_equal; lra).
  destruct (C247_labels plan13 [[0]; [1]; [13]; [10]]%R [7; 3; -1; -1]%Z [1; 1; -2; -2]%Z ThmRecal.crossed plan13_exact eq_refl eq_refl) as (out & E & L & H).
  - cbn. lia.
  - reflexivity.
  - cbn. repeat constructor; cbn; intuition lra.
  - cbn. repeat constructor; cbn; intuition lra.
  - change (rows_of is_source [1; 1; -2; -2]%Z [[0]; [1]; [13]; [10]]%R) with [[0]; [1]]%R. change (rows_of is_target [1; 1; -2; -2]%Z [[0]; [1]; [13]; [10]]%R) with [[13]; [10]]%R.
    change (length [[0]; [1]]%R) with 2. change (length [[13]; [10]]%R) with 2. rewrite E2. unfold plan13. cbn [app repeat]. destruct rows_dec as [_|N]; [reflexivity|now exfalso].
  - exists out. split; [exact E|].
    change (rows_of is_source [1; 1; -2; -2]%Z [[0]; [1]; [13]; [10]]%R) with [[0]; [1]]%R in *. change (rows_of is_target [1; 1; -2; -2]%Z [[0]; [1]; [13]; [10]]%R) with [[13]; [10]]%R in *.
    pose proof (H 1 0 ltac:(cbn; lia) ltac:(cbn; lia)) as A. pose proof (H 0 1 ltac:(cbn; lia) ltac:(cbn; lia)) as B. unfold n_below, value in A, B. cbn [nth filter] in A, B.
    rewrite (Q 0%R 1%R), (Q' 1%R 1%R), (Q' 13%R 13%R), (Q 10%R 13%R) in A by lra. rewrite (Q' 0%R 0%R), (Q' 1%R 0%R), (Q' 13%R 10%R), (Q' 10%R 10%R) in B by lra.
    specialize (A eq_refl). specialize (B eq_refl). destruct (rows_of is_target [1; 1; -2; -2]%Z out) as [|u [|v []]]; try discriminate. cbn in A, B. now rewrite A, B.
Qed.
