(** C193: label propagation by optimal transport follows a recalibration of the features. *)
From Coq Require Import String List ZArith QArith Bool Arith Lia Reals Lra Qreals Permutation FinFun.
From Verif Require Import Np NpFacts Labels Spec SpecFacts UtilsModel UtilsSpec SelectModel RVec RVecFacts
  MapModel RMat OTModel OTSpec OTProofs ThmOT ThmJdot ThmSame MapSpec MapProofs ThmMap.
Import ListNotations.
Local Open Scope nat_scope.
Local Open Scope list_scope.

(** ** Specification *)
(** The squared Euclidean distance of rows with D features. *)
Definition sq_euclid (D : nat) (x y : list R) : R := msum D (fun k => (nth k x 0 - nth k y 0) * (nth k x 0 - nth k y 0))%R.
(** Feature k is multiplied by [a k] and shifted by [t k]. *)
Definition recalibrate (D : nat) (a t : nat -> R) (x : list R) : list R := map (fun k => a k * nth k x 0 + t k)%R (seq 0 D).
(** [G] moves the masses [a] on the rows [Xs] to the masses [b] on the rows [Xt], and no other plan is cheaper. *)
Definition optimal_plan {Xrow} (cost : Xrow -> Xrow -> R) (Xs Xt : list Xrow) (a b : list R) (G : list (list R)) : Prop :=
  coupling a b G /\ forall d G', coupling a b G' ->
    (spent (length a) (length b) (fun i j => cost (nth i Xs d) (nth j Xt d)) G <= spent (length a) (length b) (fun i j => cost (nth i Xs d) (nth j Xt d)) G')%R.
(** The target rows, and no others, are recalibrated. *)
Definition target_rows_by {Row} (f : Row -> Row) (sd : list Z) (X : list Row) : list Row :=
  map (fun p => if is_target (fst p) then f (snd p) else snd p) (combine sd X).

(** ** Optimal plans *)
Section Follow.
  Context {Xrow : Type}.
  Variables (cost : Xrow -> Xrow -> R) (plan : list Xrow -> list Xrow -> list R -> list R -> res (list (list R))) (T : Xrow -> Xrow) (u v : Xrow -> R) (P : Xrow -> Prop).
  Hypothesis HC : forall x y, P x -> P y -> (u x + v y <= cost x (T y))%R /\ (cost x (T y) = (u x + v y)%R <-> x = y).
  Lemma optimum_follows Xs Xt G d : Permutation Xs Xt -> Xs <> [] -> (forall x, In x Xs -> P x) ->
    optimal_plan cost Xs (map T Xt) (repeat (/ INR (length Xs))%R (length Xs)) (repeat (/ INR (length Xt))%R (length Xt)) G ->
    forall i j, i < length Xs -> j < length Xt -> nth i Xs d <> nth j Xt d -> at2 G i j = 0%R.
  Proof.
    intros PM NE HX E. set (a := repeat (/ INR (length Xs))%R (length Xs)) in *. set (b := repeat (/ INR (length Xt))%R (length Xt)) in *.
    assert (L : length Xt = length Xs) by (symmetry; now apply Permutation_length). set (n := length Xs) in *.
    assert (La : length a = n) by apply repeat_length. assert (Lb : length b = n) by (unfold b; now rewrite repeat_length).
    assert (Na : forall i, i < n -> nth i a 0%R = (/ INR n)%R) by (intros; now apply nth_rep).
    assert (Nb : forall i, i < n -> nth i b 0%R = (/ INR n)%R) by (intros; unfold b; rewrite L; now apply nth_rep).
    assert (Pn : (0 < / INR n)%R) by (apply Rinv_0_lt_compat, lt_0_INR; unfold n; destruct Xs; [easy|cbn; lia]).
    assert (PS : forall i, i < n -> P (nth i Xs d)) by (intros; apply HX, nth_In; auto).
    assert (PT : forall i, i < n -> P (nth i Xt d)) by (intros; apply HX; apply Permutation_in with Xt; [now apply Permutation_sym|apply nth_In; lia]).
    assert (NT : forall i, nth i (map T Xt) (T d) = T (nth i Xt d)) by (intros; apply map_nth).
    assert (LM : length b = length (map T Xt)) by (rewrite map_length; congruence).
    destruct E as (HG & Best). specialize (Best (T d)). rewrite La, Lb in Best.
    destruct (proj1 (Permutation_nth Xs Xt d) PM) as (_ & f & Bf & If & Nf). fold n in Bf, If, Nf.
    pose proof (proj1 (bInjective_bSurjective Bf) If) as Sf. destruct (bSurjective_bBijective Bf Sf) as (g & Bg & Gg).
    set (G' := map (fun i => map (fun j => if f j =? i then (/ INR n)%R else 0%R) (seq 0 n)) (seq 0 n)).
    assert (AT : forall i j, i < n -> j < n -> at2 G' i j = if f j =? i then (/ INR n)%R else 0%R).
    { intros i j Hi Hj. unfold at2, G'. rewrite nth_indep with (d' := map (fun j => if f j =? 0 then (/ INR n)%R else 0%R) (seq 0 n)) by (now rewrite map_length, seq_length).
      rewrite (map_nth (fun i => map (fun j => if f j =? i then (/ INR n)%R else 0%R) (seq 0 n)) (seq 0 n) 0 i). rewrite seq_nth by auto. cbn [plus].
      rewrite nth_indep with (d' := if f 0 =? i then (/ INR n)%R else 0%R) by (now rewrite map_length, seq_length).
      rewrite (map_nth (fun j => if f j =? i then (/ INR n)%R else 0%R) (seq 0 n) 0 j). now rewrite seq_nth. }
    assert (C' : coupling a b G').
    { unfold coupling. rewrite La, Lb. split; [|split; [|split]].
      - split; [unfold G'; now rewrite map_length, seq_length|]. apply Forall_forall. intros r Hr. apply in_map_iff in Hr as (i & <- & _). now rewrite map_length, seq_length.
      - intros i j Hi Hj. rewrite AT by auto. destruct (f j =? i); lra.
      - intros i Hi. rewrite Na by auto. destruct (Gg i Hi) as (G1 & G2). pose proof (Bg i Hi).
        rewrite (msum_ext n _ (fun j => if j =? g i then (/ INR n)%R else 0%R)); [now rewrite (msum_one n (fun _ => / INR n)%R)|].
        intros j Hj. rewrite AT by auto. destruct (Nat.eqb_spec (f j) i) as [Ej|Ej], (Nat.eqb_spec j (g i)) as [Eg|Eg]; auto; exfalso.
        + apply Eg. rewrite <- Ej. symmetry. apply (Gg j Hj). + apply Ej. rewrite Eg. exact G2.
      - intros j Hj. rewrite Nb by auto. rewrite (msum_ext n _ (fun i => if i =? f j then (/ INR n)%R else 0%R)); [rewrite (msum_one n (fun _ => / INR n)%R); auto|].
        intros i Hi. rewrite AT by auto. now rewrite Nat.eqb_sym. }
    specialize (Best G' C'). cbv zeta in Best.
    set (w := fun i j => (cost (nth i Xs (T d)) (nth j (map T Xt) (T d)) - u (nth i Xs d) - v (nth j Xt d))%R).
    assert (SP : forall M, coupling a b M -> spent n n (fun i j => cost (nth i Xs (T d)) (nth j (map T Xt) (T d))) M =
              (spent n n w M + (msum n (fun i => u (nth i Xs d) * / INR n) + msum n (fun j => v (nth j Xt d) * / INR n)))%R).
    { intros M (_ & _ & RS & CS). rewrite La, Lb in RS, CS. unfold spent, w.
      rewrite (msum_ext n (fun i => u (nth i Xs d) * / INR n)%R (fun i => msum n (fun j => u (nth i Xs d) * at2 M i j)%R)).
      2:{ intros i Hi. rewrite msum_scal, RS, Na by auto. reflexivity. }
      rewrite (msum_ext n (fun j => v (nth j Xt d) * / INR n)%R (fun j => msum n (fun i => v (nth j Xt d) * at2 M i j)%R)).
      2:{ intros j Hj. rewrite msum_scal, CS, Nb by auto. reflexivity. }
      rewrite (msum_swap n n (fun j i => v (nth j Xt d) * at2 M i j)%R).
      rewrite <- !msum_plus. apply msum_ext. intros i Hi. rewrite <- !msum_plus. apply msum_ext. intros j Hj. ring. }
    rewrite (SP G HG), (SP G' C') in Best. assert (Best' : (spent n n w G <= spent n n w G')%R) by lra. clear Best.
    assert (IX : forall i, i < n -> nth i Xs (T d) = nth i Xs d) by (intros; now apply nth_indep).
    assert (Wp : forall i j, i < n -> j < n -> (0 <= w i j)%R /\ (w i j = 0%R -> nth i Xs d = nth j Xt d)).
    { intros i j Hi Hj. unfold w. rewrite NT, IX by auto. destruct (HC (nth i Xs d) (nth j Xt d) (PS i Hi) (PT j Hj)) as (H1 & H2). split; [lra|]. intros Z. apply H2. lra. }
    assert (Z' : spent n n w G' = 0%R).
    { unfold spent. rewrite (msum_ext n _ (fun _ => 0%R)); [apply msum_zero|]. intros i Hi. rewrite (msum_ext n _ (fun _ => 0%R)); [apply msum_zero|]. intros j Hj. rewrite AT by auto.
      destruct (Nat.eqb_spec (f j) i) as [<-|]; [|ring]. unfold w. rewrite NT, IX by auto. rewrite (Nf j Hj).
      rewrite (proj2 (proj2 (HC _ _ (PS _ Hi) (PS _ Hi))) eq_refl). ring. }
    rewrite Z' in Best'. destruct HG as (_ & GN & _). rewrite La, Lb in GN. intros i j Hi Hj Ne.
    assert (I1 := msum_zero_terms n (fun i => msum n (fun j => w i j * at2 G i j)%R)).
    assert (P1 : forall i j, i < n -> j < n -> (0 <= w i j * at2 G i j)%R) by (intros i0 j0 ? ?; apply Rmult_le_pos; [now apply Wp|now apply GN]).
    assert (P0 : forall k, k < n -> (0 <= msum n (fun j => w k j * at2 G k j))%R) by (intros k Hk; apply msum_nonneg; intros; now apply P1).
    specialize (I1 P0 Best' i Hi). cbn beta in I1. assert (Hj' : j < n) by lia. assert (I1' : (msum n (fun j => w i j * at2 G i j) <= 0)%R) by lra.
    assert (I2 := msum_zero_terms n (fun j => w i j * at2 G i j)%R (fun j Hj => P1 i j Hi Hj) I1' j Hj'). cbn beta in I2.
    apply Rmult_integral in I2 as [I2|]; auto. exfalso. apply Ne. now apply Wp.
  Qed.
  Lemma mass_follows Xs Xt G d : exact_plan cost plan -> Permutation Xs Xt -> Xs <> [] -> (forall x, In x Xs -> P x) ->
    plan Xs (map T Xt) (repeat (/ INR (length Xs))%R (length Xs)) (repeat (/ INR (length Xt))%R (length Xt)) = Ok G ->
    coupling (repeat (/ INR (length Xs))%R (length Xs)) (repeat (/ INR (length Xt))%R (length Xt)) G /\
    forall i j, i < length Xs -> j < length Xt -> nth i Xs d <> nth j Xt d -> at2 G i j = 0%R.
  Proof.
    intros HP PM NE HX E. assert (La : length (repeat (/ INR (length Xs))%R (length Xs)) = length Xs) by apply repeat_length.
    assert (Lb : length (repeat (/ INR (length Xt))%R (length Xt)) = length (map T Xt)) by (now rewrite repeat_length, map_length).
    assert (O : forall d, _) by (intros d'; exact (HP Xs (map T Xt) _ _ G d' La Lb E)).
    split; [apply (O d)|]. apply optimum_follows; auto. split; [apply (O d)|]. intros d' G' C'. now apply (O d').
  Qed.
End Follow.

(** ** Recalibrated rows *)
Lemma nth_recal D a t x k d : k < D -> nth k (recalibrate D a t x) d = (a k * nth k x 0 + t k)%R.
Proof.
  intros H. unfold recalibrate. rewrite nth_indep with (d' := (a 0%nat * nth 0 x 0 + t 0%nat)%R) by (now rewrite map_length, seq_length).
  rewrite (map_nth (fun k => a k * nth k x 0 + t k)%R). now rewrite seq_nth.
Qed.
Lemma recal_potential D a t : (forall k, k < D -> (0 < a k)%R) -> forall x y, length x = D -> length y = D ->
  let u := fun x => msum D (fun k => (1 - a k) * (nth k x 0 * nth k x 0) - 2 * (nth k x 0 * t k))%R in
  let v := fun y => msum D (fun k => (a k * nth k y 0 + t k) * (a k * nth k y 0 + t k) - a k * (nth k y 0 * nth k y 0))%R in
  (u x + v y <= sq_euclid D x (recalibrate D a t y))%R /\ (sq_euclid D x (recalibrate D a t y) = (u x + v y)%R <-> x = y).
Proof.
  intros Ha x y Lx Ly u v.
  assert (E : sq_euclid D x (recalibrate D a t y) = (msum D (fun k => a k * ((nth k x 0 - nth k y 0) * (nth k x 0 - nth k y 0))) + (u x + v y))%R).
  { unfold sq_euclid, u, v. rewrite <- !msum_plus. apply msum_ext. intros k Hk. rewrite nth_recal by auto. ring. }
  rewrite E. assert (N : forall k, k < D -> (0 <= a k * ((nth k x 0 - nth k y 0) * (nth k x 0 - nth k y 0)))%R).
  { intros k Hk. apply Rmult_le_pos; [left; auto|apply Rle_0_sqr]. }
  split; [assert (H := msum_nonneg D _ N); lra|]. split.
  - intros Z. assert (Z' : (msum D (fun k => a k * ((nth k x 0 - nth k y 0) * (nth k x 0 - nth k y 0))) <= 0)%R) by lra.
    apply (nth_ext x y 0%R 0%R); [congruence|]. intros k Hk. assert (Hk' : k < D) by lia. assert (Q := msum_zero_terms D _ N Z' k Hk'). cbn beta in Q. specialize (Ha k Hk').
    apply Rmult_integral in Q as [Q|Q]; [lra|]. apply Rmult_integral in Q as [Q|Q]; lra.
  - intros ->. rewrite (msum_ext D _ (fun _ => 0%R)); [rewrite msum_zero; ring|]. intros k _. ring.
Qed.

(** The rows of the recalibrated array. *)
Lemma trb_source {Row} (f : Row -> Row) sd X : length X = length sd -> rows_of is_source sd (target_rows_by f sd X) = rows_of is_source sd X.
Proof.
  unfold rows_of, target_rows_by. revert X. induction sd as [|z sd IH]; intros [|x X] L; try discriminate; [reflexivity|]. cbn in L. cbn [combine map fst snd filter].
  specialize (IH X ltac:(lia)). destruct (is_source z) eqn:S; cbn [map snd]; rewrite ?IH; auto. f_equal.
  unfold is_source, is_target in *. destruct (z <? 0)%Z eqn:Q; auto. lia.
Qed.
Lemma trb_target {Row} (f : Row -> Row) sd X : length X = length sd -> rows_of is_target sd (target_rows_by f sd X) = map f (rows_of is_target sd X).
Proof.
  unfold rows_of, target_rows_by. revert X. induction sd as [|z sd IH]; intros [|x X] L; try discriminate; [reflexivity|]. cbn in L. cbn [combine map fst snd filter].
  specialize (IH X ltac:(lia)). destruct (is_target z) eqn:S; cbn [map snd]; rewrite ?IH; auto.
Qed.
Lemma trb_length {Row} (f : Row -> Row) sd (X : list Row) : length X = length sd -> length (target_rows_by f sd X) = length sd.
Proof. intros L. unfold target_rows_by. rewrite map_length, combine_length. lia. Qed.

(** Targets that are copies of the sources in any order, recalibrated with positive factors; sources of which equal ones have equal labels: every target gets the label of the source it is a recalibrated copy of. *)
Theorem C193_label_propagation : forall D a t (plan : list (list R) -> list (list R) -> list R -> list R -> res (list (list R))) X (y : list Z) sd out,
  exact_plan (sq_euclid D) plan -> (forall k, k < D -> (0 < a k)%R) -> (forall x, In x X -> length x = D) -> length X = length sd -> length y = length sd -> 0 < how_many is_source sd ->
  let Xs := rows_of is_source sd X in let Xt := rows_of is_target sd X in let ys := rows_of is_source sd y in
  Permutation Xs Xt -> (forall i i' d, i < length Xs -> i' < length Xs -> nth i Xs d = nth i' Xs d -> nth i ys 0%Z = nth i' ys 0%Z) ->
  otlp_discrete plan (target_rows_by (recalibrate D a t) sd X) y None sd = Ok out ->
  forall i j d, i < length Xs -> j < length Xt -> nth j Xt d = nth i Xs d -> nth j (rows_of is_target sd out) 0%Z = nth i ys 0%Z.
Proof.
  intros D al t plan X y sd out HP Hal HD LX Ly Hs Xs Xt ys PM Con E i j d Hi Hj Same.
  assert (LX' := trb_length (recalibrate D al t) sd X LX). assert (ES := trb_source (recalibrate D al t) sd X LX). assert (ET := trb_target (recalibrate D al t) sd X LX).
  set (X' := target_rows_by (recalibrate D al t) sd X) in *. fold Xs in ES. fold Xt in ET.
  assert (Hsd : sd <> []) by (intros ->; cbn in Hs; lia).
  assert (LXs : length Xs = how_many is_source sd) by now apply rows_of_length. assert (LXt : length Xt = how_many is_target sd) by now apply rows_of_length.
  assert (Lys : length ys = how_many is_source sd) by now apply rows_of_length.
  assert (PE := E). unfold otlp_discrete in PE. rewrite otlp_parts_ok in PE by (auto; easy). cbn [bind] in PE. apply bind_ok in PE as [G [HG _]].
  cbn [opt_rows proportions] in HG. rewrite ES, ET in HG.
  assert (NE : Xs <> []) by (intros Z; rewrite Z in Hi; cbn in Hi; lia).
  assert (HG' := HG). rewrite <- LXs, <- LXt in HG'. assert (HX : forall x, In x Xs -> length x = D).
  { intros x Hx. apply HD. unfold Xs, rows_of in Hx. apply in_map_iff in Hx as ((z & x') & <- & Hx). apply filter_In in Hx as (Hx & _). now apply in_combine_r in Hx. }
  destruct (mass_follows (sq_euclid D) plan (recalibrate D al t) _ _ (fun x => length x = D) (recal_potential D al t Hal) Xs Xt G d HP PM NE HX HG') as (CG & Z). rewrite LXs, LXt in CG.
  destruct CG as ((LG & FG) & GN & RS & CS). rewrite !repeat_length in *.
  destruct (C52_discrete_labels plan X' y None sd G) as (labels & out' & E' & (Lo & _ & To) & LL & Hv); auto; try easy; try (rewrite ES, ET; exact HG).
  rewrite E in E'. injection E' as <-. rewrite To. specialize (Hv j ltac:(lia)). fold ys in Hv. destruct Hv as (Hin & Hmax & _).
  set (c := nth j labels 0%Z) in *. set (l := nth i ys 0%Z) in *.
  assert (LGy : length G = length ys) by congruence.
  destruct (Z.eq_dec c l) as [|Ne]; auto. exfalso.
  assert (M0 : mass_of G ys c j = 0%R).
  { rewrite mass_msum by auto. rewrite (msum_ext _ _ (fun _ => 0%R)); [apply msum_zero|]. intros a Ha. destruct (Z.eqb_spec (nth a ys 0%Z) c) as [Ea|]; auto. apply Z; try lia.
    intros Eq. apply Ne. rewrite <- Ea. apply (Con a i d); try lia. congruence. }
  assert (M1 : mass_of G ys l j = (/ INR (how_many is_target sd))%R).
  { rewrite mass_msum by auto. rewrite <- (nth_rep (/ INR (how_many is_target sd))%R 0%R (how_many is_target sd) j) by lia. rewrite <- CS by lia. rewrite Lys. apply msum_ext. intros a Ha.
    destruct (Z.eqb_spec (nth a ys 0%Z) l) as [|Na]; auto. symmetry. apply Z; try lia. intros Eq. apply Na. apply (Con a i d); try lia. congruence. }
  assert (In l ys) by (apply nth_In; lia). specialize (Hmax l H). rewrite M0, M1 in Hmax.
  assert (0 < / INR (how_many is_target sd))%R by (apply Rinv_0_lt_compat, lt_0_INR; lia). lra.
Qed.
Theorem C193_label_propagation_regression : forall D a t (plan : list (list R) -> list (list R) -> list R -> list R -> res (list (list R))) X (y : list R) sd out,
  exact_plan (sq_euclid D) plan -> (forall k, k < D -> (0 < a k)%R) -> (forall x, In x X -> length x = D) -> length X = length sd -> length y = length sd -> 0 < how_many is_source sd ->
  let Xs := rows_of is_source sd X in let Xt := rows_of is_target sd X in let ys := rows_of is_source sd y in
  Permutation Xs Xt -> (forall i i' d, i < length Xs -> i' < length Xs -> nth i Xs d = nth i' Xs d -> nth i ys 0%R = nth i' ys 0%R) ->
  otlp_regression plan (target_rows_by (recalibrate D a t) sd X) y None sd = Ok out ->
  forall i j d, i < length Xs -> j < length Xt -> nth j Xt d = nth i Xs d -> nth j (rows_of is_target sd out) None = Some (nth i ys 0%R).
Proof.
  intros D al t plan X y sd out HP Hal HD LX Ly Hs Xs Xt ys PM Con E i j d Hi Hj Same.
  assert (LX' := trb_length (recalibrate D al t) sd X LX). assert (ES := trb_source (recalibrate D al t) sd X LX). assert (ET := trb_target (recalibrate D al t) sd X LX).
  set (X' := target_rows_by (recalibrate D al t) sd X) in *. fold Xs in ES. fold Xt in ET.
  assert (Hsd : sd <> []) by (intros ->; cbn in Hs; lia).
  assert (LXs : length Xs = how_many is_source sd) by now apply rows_of_length. assert (LXt : length Xt = how_many is_target sd) by now apply rows_of_length.
  assert (Lys : length ys = how_many is_source sd) by now apply rows_of_length.
  assert (PE := E). unfold otlp_regression in PE. rewrite otlp_parts_ok in PE by (auto; easy). cbn [bind] in PE. apply bind_ok in PE as [G [HG _]].
  cbn [opt_rows proportions] in HG. rewrite ES, ET in HG.
  assert (NE : Xs <> []) by (intros Z; rewrite Z in Hi; cbn in Hi; lia).
  assert (HG' := HG). rewrite <- LXs, <- LXt in HG'. assert (HX : forall x, In x Xs -> length x = D).
  { intros x Hx. apply HD. unfold Xs, rows_of in Hx. apply in_map_iff in Hx as ((z & x') & <- & Hx). apply filter_In in Hx as (Hx & _). now apply in_combine_r in Hx. }
  destruct (mass_follows (sq_euclid D) plan (recalibrate D al t) _ _ (fun x => length x = D) (recal_potential D al t Hal) Xs Xt G d HP PM NE HX HG') as (CG & Z). rewrite LXs, LXt in CG.
  destruct CG as ((LG & FG) & GN & RS & CS). rewrite !repeat_length in *.
  destruct (C52_regression_labels plan X' y None sd G) as (out' & E' & (Lo & _ & To)); auto; try easy; try (rewrite ES, ET; exact HG).
  rewrite E in E'. injection E' as <-. rewrite To. cbn [opt_rows proportions].
  rewrite nth_indep with (d' := Some (moved_label G ys (repeat (/ INR (how_many is_target sd))%R (how_many is_target sd)) 0)) by (rewrite map_length, seq_length; lia).
  fold ys. rewrite (map_nth (fun j => Some (moved_label G ys (repeat (/ INR (how_many is_target sd))%R (how_many is_target sd)) j))). rewrite seq_nth by lia. cbn [plus]. f_equal.
  rewrite moved_msum by congruence. rewrite (msum_ext _ _ (fun a => nth i ys 0 * at2 G a j)%R).
  - rewrite msum_scal. rewrite Lys, CS by lia. rewrite nth_rep by lia. field. assert (0 < INR (how_many is_target sd))%R by (apply lt_0_INR; lia).
    assert (0 < / INR (how_many is_target sd))%R by now apply Rinv_0_lt_compat. lra.
  - intros a Ha. destruct (Req_EM_T (nth a ys 0%R) (nth i ys 0%R)) as [->|Na]; auto. rewrite Z; [ring|lia|lia|]. intros Eq. apply Na. apply (Con a i d); try lia. congruence.
Qed.


(** ** The OT mapping *)
Definition num (v : val) : R := match v with VNum q => Q2R q | _ => 0%R end.
Definition reals (rows : list (list val)) : list (list R) := map (map num) rows.
(** A transport that, once fitted, sends each training source row to the barycentre of the target rows under an optimal plan between uniform masses. *)
Definition barycentric (D : nat) (tfit : arr -> option (list val) -> arr -> option (list val) -> res (arr -> res arr)) : Prop :=
  forall Xs ys Xt yt tr, tfit Xs ys Xt yt = Ok tr ->
  exists G out, optimal_plan (sq_euclid D) (reals (a_rows Xs)) (reals (a_rows Xt)) (repeat (/ INR (a_len Xs))%R (a_len Xs)) (repeat (/ INR (a_len Xt))%R (a_len Xt)) G /\
    tr Xs = Ok out /\ a_dt out = DFloat /\ a_tail out = a_tail Xs /\ a_len out = a_len Xs /\
    forall i, i < a_len Xs -> nth i (reals (a_rows out)) [] =
      map (fun k => msum (a_len Xt) (fun j => at2 G i j * nth k (nth j (reals (a_rows Xt)) []) 0) / msum (a_len Xt) (fun j => at2 G i j))%R (seq 0 D).

(** Target rows that are recalibrated copies of the source rows, in any order: fit_transform sends every source row to its recalibrated copy and keeps the target rows. *)
Theorem C193_mapping : forall D a t tfit X y sda m, barycentric D tfit -> (forall k, k < D -> (0 < a k)%R) ->
  usable true (a_len X) sda -> table X -> (forall l, y = Some l -> length l = a_len X) ->
  let sd := eff_domain (a_len X) sda in let Xs := reals (rows_of is_source sd (a_rows X)) in
  (forall x, In x Xs -> length x = D) -> Xs <> [] ->
  (exists copies, Permutation Xs copies /\ reals (rows_of is_target sd (a_rows X)) = map (recalibrate D a t) copies) ->
  ot_fit_transform tfit X y sda = Ok m ->
  reals (rows_of is_source sd (a_rows m)) = map (recalibrate D a t) Xs /\ rows_of is_target sd (a_rows m) = rows_of is_target sd (a_rows X).
Proof.
  intros D al t tfit X y sda m HB Ha U TX Hy sd Xs HD NE (Xt & PM & ET) E.
  destruct (C40_ot_fit_transform tfit X y sda U Hy) as (F1 & F2). fold sd in F1.
  assert (EF := E). unfold ot_fit_transform in EF. apply bind_ok in EF as (tr & Etr & _). rewrite (F2 tr Etr) in E. clear F2. rewrite F1 in Etr. clear F1.
  destruct (HB _ _ _ _ _ Etr) as (G & out & OP & Eo & Dt & Tl & Len & Bar). clear HB Etr.
  assert (LXs : a_len (half is_source sd X) = length Xs) by (unfold a_len, half, Xs, reals; cbn [a_rows]; now rewrite map_length).
  assert (LXt : a_len (half is_target sd X) = length Xt).
  { unfold a_len, half; cbn [a_rows]. rewrite <- (map_length (map num)), <- (map_length (recalibrate D al t) Xt), <- ET. reflexivity. }
  cbn [half a_rows] in OP, Bar. fold sd in OP, Bar. change (reals (rows_of is_source sd (a_rows X))) with Xs in OP. rewrite ET in OP, Bar. rewrite LXs in *. rewrite LXt in *.
  assert (L : length Xs = length Xt) by now apply Permutation_length.
  assert (F := optimum_follows (sq_euclid D) (recalibrate D al t) _ _ (fun x => length x = D) (recal_potential D al t Ha) Xs Xt G [] PM NE HD OP).
  destruct OP as ((_ & _ & RS & _) & _). rewrite !repeat_length in RS.
  destruct (C40_ot_transform true tr X sda U TX) as (m' & Em & _ & Tg & Sr & _).
  { intros _. exists out. fold sd. rewrite LXs. auto. }
  rewrite E in Em. injection Em as <-. fold sd in Tg, Sr. split; auto.
  assert (SL : some_label is_source sd).
  { destruct (rows_of is_source sd (a_rows X)) as [|r rs] eqn:Q; [exfalso; apply NE; unfold Xs; rewrite ?Q; reflexivity|].
    assert (In r (rows_of is_source sd (a_rows X))) as Hr by (rewrite Q; now left). unfold rows_of in Hr. apply in_map_iff in Hr as ((z & r') & _ & Hr). apply filter_In in Hr as (Hr & Hz).
    apply in_combine_l in Hr. now exists z. }
  rewrite (Sr SL out Eo). assert (Pn : (0 < / INR (length Xs))%R) by (apply Rinv_0_lt_compat, lt_0_INR; destruct Xs; [easy|cbn; lia]).
  apply (nth_ext _ _ [] (recalibrate D al t [])).
  { unfold reals. rewrite !map_length. exact Len. }
  intros i Hi. assert (Hi' : i < length Xs) by (unfold reals in Hi; rewrite map_length in Hi; unfold a_len in Len; lia). rewrite Bar by auto. rewrite map_nth. unfold recalibrate at 2. apply map_ext_in. intros k Hk. apply in_seq in Hk.
  rewrite (RS i Hi'), nth_rep by auto.
  rewrite (msum_ext _ _ (fun j => (al k * nth k (nth i Xs []) 0 + t k) * at2 G i j)%R).
  - rewrite msum_scal. change (msum (length Xt) (at2 G i)) with (msum (length Xt) (fun j => at2 G i j)). rewrite (RS i Hi'), nth_rep by auto. field. apply not_0_INR. lia.
  - intros j Hj. destruct (list_eq_dec Req_EM_T (nth i Xs []) (nth j Xt [])) as [Q|Q].
    + rewrite nth_indep with (d' := recalibrate D al t []) by (now rewrite map_length). rewrite map_nth, nth_recal by lia. rewrite Q. ring.
    + rewrite (F i j Hi' Hj Q). ring.
Qed.

(** ** Examples: one feature; sources 0 and 1, targets 13 and 10, that is 3 * 1 + 10 and 3 * 0 + 10. *)
Definition crossed : list (list R) := [[0;/2];[/2;0]]%R.
Definition plan13 (Xs Xt : list (list R)) (a b : list R) : res (list (list R)) :=
  if list_eq_dec (list_eq_dec Req_EM_T) Xs [[0];[1]]%R then if list_eq_dec (list_eq_dec Req_EM_T) Xt [[13];[10]]%R then
  if list_eq_dec Req_EM_T a [/2;/2]%R then if list_eq_dec Req_EM_T b [/2;/2]%R then Ok crossed else Err ValueError else Err ValueError else Err ValueError else Err ValueError.
Lemma crossed_optimal : optimal_plan (sq_euclid 1) [[0];[1]]%R [[13];[10]]%R [/2;/2]%R [/2;/2]%R crossed.
Proof.
  split.
  - split; [split; [reflexivity|repeat constructor]|]. cbn [length]. split; [|split].
    + intros [|[|i]] [|[|j]] Hi Hj; cbn; try lia; lra.
    + intros [|[|i]] Hi; cbn; try lia; lra.
    + intros [|[|i]] Hi; cbn; try lia; lra.
  - intros d G' (_ & N & RS & CS). cbn [length] in *. unfold spent, sq_euclid. cbn [msum nth].
    assert (N00 := N 0 0 ltac:(lia) ltac:(lia)). assert (R0 := RS 0 ltac:(lia)). assert (R1 := RS 1 ltac:(lia)). assert (C0 := CS 0 ltac:(lia)). cbn [msum nth] in R0, R1, C0.
    unfold crossed, at2 at 1 2 3 4. cbn [nth]. nra.
Qed.
Lemma exact_plan13 : exact_plan (sq_euclid 1) plan13.
Proof.
  intros Xs Xt a b G d La Lb E. unfold plan13 in E. do 4 (destruct list_eq_dec in E; [|discriminate E]). injection E as <-. subst.
  destruct crossed_optimal as (C & B). split; [exact C|]. intros G' C'. now apply B.
Qed.
Example C193_ex : let X := [[0];[1];[1];[0]]%R in let a := fun _ : nat => 3%R in let t := fun _ : nat => 10%R in
  exact_plan (sq_euclid 1) plan13 /\ target_rows_by (recalibrate 1 a t) [1;1;-2;-2]%Z X = [[0];[1];[13];[10]]%R /\
  otlp_discrete plan13 [[0];[1];[13];[10]]%R [5;7;-1;-1]%Z None [1;1;-2;-2]%Z = Ok [-1;-1;7;5]%Z.
Proof.
  intros X a t. assert (EX : target_rows_by (recalibrate 1 a t) [1;1;-2;-2]%Z X = [[0];[1];[13];[10]]%R).
  { unfold target_rows_by, recalibrate, X, a, t. cbn. replace (3 * 1 + 10)%R with 13%R by ring. replace (3 * 0 + 10)%R with 10%R by ring. reflexivity. }
  split; [apply exact_plan13|]. split; auto.
  assert (EP : plan13 [[0];[1]]%R [[13];[10]]%R [/2;/2]%R [/2;/2]%R = Ok crossed).
  { unfold plan13. repeat (destruct list_eq_dec as [|N]; [|exfalso; apply N; reflexivity]). reflexivity. }
  unfold otlp_discrete. rewrite otlp_parts_ok by (easy || reflexivity). cbn [bind opt_rows proportions].
  change (rows_of is_source [1;1;-2;-2]%Z [[0];[1];[13];[10]]%R) with [[0];[1]]%R. change (rows_of is_target [1;1;-2;-2]%Z [[0];[1];[13];[10]]%R) with [[13];[10]]%R.
  change (how_many is_source [1;1;-2;-2]%Z) with 2. change (how_many is_target [1;1;-2;-2]%Z) with 2. cbn [repeat].
  replace (/ INR 2)%R with (/ 2)%R by (cbn; field). rewrite EP. unfold crossed. cbn [bind].
  unfold class_mass. cbn. unfold np_argmax. cbn.
  replace (Rltb (- (0 * 0 + (/ 2 * 1 + 0))) (- (0 * 1 + (/ 2 * 0 + 0)))) with true by (symmetry; apply Rltb_iff; lra).
  replace (Rltb (- (/ 2 * 0 + (0 * 1 + 0))) (- (/ 2 * 1 + (0 * 0 + 0)))) with false by (symmetry; apply Rltb_false; lra). reflexivity.
Qed.

Lemma arr_dec (x y : arr) : {x = y} + {x <> y}.
Proof.
  assert (V : forall u v : val, {u = v} + {u <> v}).
  { intros u v. decide equality; [|apply Bool.bool_dec]. destruct q as [n d], q0 as [n' d']. destruct (Z.eq_dec n n') as [->|]; [|right; congruence]. destruct (Pos.eq_dec d d') as [->|]; [now left|right; congruence]. }
  decide equality; [apply list_eq_dec, list_eq_dec, V|apply list_eq_dec, Nat.eq_dec|decide equality].
Qed.
Definition col_of (l : list Z) : arr := mkArr DFloat [1] (map (fun z => [VNum (inject_Z z)]) l).
Definition tfit13 (Xs : arr) (_ : option (list val)) (Xt : arr) (_ : option (list val)) : res (arr -> res arr) :=
  if arr_dec Xs (col_of [0;1]%Z) then if arr_dec Xt (col_of [13;10]%Z) then Ok (fun _ => Ok (col_of [10;13]%Z)) else Err ValueError else Err ValueError.
Lemma reals_col l : reals (a_rows (col_of l)) = map (fun z => [IZR z]) l.
Proof. unfold reals, col_of. cbn [a_rows]. rewrite map_map. apply map_ext. intros z. unfold num, Q2R, inject_Z. cbn. f_equal. field. Qed.
Example C193_mapping_ex : let X := col_of [0;1;13;10]%Z in
  barycentric 1 tfit13 /\ usable true (a_len X) (SDArr [1;1;-2;-2]%Z) /\ table X /\
  ot_fit_transform tfit13 X None (SDArr [1;1;-2;-2]%Z) = Ok (col_of [10;13;13;10]%Z) /\
  map (recalibrate 1 (fun _ => 3%R) (fun _ => 10%R)) [[1];[0]]%R = [[13];[10]]%R.
Proof.
  intros X. split; [|split; [|split; [|split]]].
  - intros Xs ys Xt yt tr E. unfold tfit13 in E. destruct (arr_dec _ _) as [->|]; [|discriminate E]. destruct (arr_dec _ _) as [->|]; [|discriminate E]. injection E as <-.
    exists crossed, (col_of [10;13]%Z). rewrite !reals_col. cbn [map]. change (a_len (col_of [0;1]%Z)) with 2. change (a_len (col_of [13;10]%Z)) with 2. cbn [repeat].
    replace (/ INR 2)%R with (/ 2)%R by (cbn; field). split; [apply crossed_optimal|]. split; [reflexivity|]. split; [reflexivity|]. split; [reflexivity|]. split; [reflexivity|].
    intros [|[|i]] Hi; try lia; cbn; f_equal; field.
  - split; [cbn; lia|]. split; [reflexivity|discriminate].
  - split; [cbn; lia|]. discriminate.
  - assert (U : usable true (a_len X) (SDArr [1;1;-2;-2]%Z)) by (split; [cbn; lia|]; split; [reflexivity|discriminate]).
    destruct (C40_ot_fit_transform tfit13 X None (SDArr [1;1;-2;-2]%Z) U ltac:(discriminate)) as (F & G).
    assert (E : ot_fit tfit13 X None (SDArr [1;1;-2;-2]%Z) = Ok (fun _ => Ok (col_of [10;13]%Z))).
    { rewrite F. unfold tfit13. change (half is_source _ X) with (col_of [0;1]%Z). change (half is_target _ X) with (col_of [13;10]%Z).
      destruct (arr_dec _ _) as [_|N]; [|now destruct N]. destruct (arr_dec _ _) as [_|N]; [|now destruct N]. reflexivity. }
    rewrite (G _ E). reflexivity.
  - unfold recalibrate. cbn. replace (3 * 1 + 10)%R with 13%R by ring. replace (3 * 0 + 10)%R with 10%R by ring. reflexivity.
Qed.
