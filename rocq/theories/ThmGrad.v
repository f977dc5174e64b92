(** Theorems C58, C59, C93, C94, C97: gradual domain adaptation. *)
From Coq Require Import String List ZArith QArith Bool Arith Lia Reals Lra Sorted Permutation.
From Verif Require Import Np NpFacts Labels UtilsModel SelectModel Spec SpecFacts UtilsSpec UtilsProofs UtilsProofs2 RVec RVecFacts
  OTSpec OTProofs OTProofs2 SelfModel SelfSpec SelfProofs GradProofs GradProofs2.
Import ListNotations.
Local Open Scope nat_scope.
Local Open Scope list_scope.

Section Gradual.
  Context {Est : Type}.
  Variable coupling : list (list R) -> list val -> list (list R) -> list val -> res (list (list R)).
  Variable fitE : nat -> list (list R) -> list val -> res Est.
  Variable predictE : Est -> list R -> val.
  Notation fit := (gradual_fit Est coupling fitE predictE).
  Definition start (st : gstate Est) : nat := match g_max_iter _ st with None => 100 | Some k => k end.

  Lemma select_rows {A} (xs : list A) sd : length xs = length sd ->
    np_select (map (fun d => (0 <=? d)%Z) sd) xs = Ok (rows_of is_source sd xs) /\
    np_select (map (fun d => (d <? 0)%Z) sd) xs = Ok (rows_of is_target sd xs).
  Proof.
    intros L. rewrite !np_select_ok by (now rewrite map_length). now rewrite !rows_of_select.
  Qed.

  (** What a fit that does not raise has done. *)
  Lemma fit_inv alpha n advanced w st X y sd gamma st' data :
    (0 <= alpha)%R -> 0 < n -> length X = length sd -> length y = length sd ->
    let Xs := rows_of is_source sd X in let Xt := rows_of is_target sd X in
    coupling Xs (rows_of is_source sd y) Xt (rows_of is_target sd y) = Ok gamma ->
    matrix (length Xs) (length Xt) gamma -> 0 < length Xs -> 0 < length Xt ->
    fit alpha n advanced w st X y sd = Ok (st', data) ->
    exists mi mask, (if advanced then advanced_cut_off_gamma gamma (length Xt) else cut_off_gamma alpha gamma (length Xt)) = Ok (mi, mask) /\
      matrix (length Xs) (length Xt) mask /\
      let pairs := set_pairs mask (length Xs) (length Xt) in
      Z.of_nat (length pairs) = (mi + 1)%Z /\
      let gen := fun t => map (step_row n t Xs Xt) pairs in
      map fst data = map gen (seq 1 n) /\
      exists e, st' = mkG _ (Some (start st + 100 * n)) (Some e) /\
        gradually_trained fitE predictE (fun t => start st + 100 * t) Xs (rows_of is_source sd y) gen n e.
  Proof.
    intros Ha Hn LX Ly Xs Xt HC M Hs Ht H. unfold gradual_fit in H. cbv zeta in H.
    rewrite (proj1 (select_rows X sd LX)), (proj2 (select_rows X sd LX)), (proj1 (select_rows y sd Ly)), (proj2 (select_rows y sd Ly)) in H.
    cbn [bind] in H. fold Xs Xt in H. rewrite HC in H. cbn [bind] in H.
    assert (CM : exists mi mask, (if advanced then advanced_cut_off_gamma gamma (length Xt) else cut_off_gamma alpha gamma (length Xt)) = Ok (mi, mask) /\
      matrix (length Xs) (length Xt) mask /\ (mi + 1 <= Z.of_nat (count (concat mask)))%Z).
    { destruct advanced.
      - destruct (advanced_spec gamma _ _ M Hs Ht) as (mi & mask & E & MM & C & _). exists mi, mask. repeat split; try apply MM; auto. lia.
      - destruct (cut_off_spec alpha gamma _ _ Ha M Hs Ht) as (mi & mask & th & E & -> & _ & _ & C & _).
        exists mi. eexists. split; [exact E|]. split; [now apply map_matrix|exact C]. }
    destruct CM as (mi & mask & E & MM & C). exists mi, mask. split; [exact E|]. split; [exact MM|]. cbv zeta.
    rewrite E in H. cbn [bind fst snd] in H. fold (start st) in H. apply bind_ok in H as (e0 & E0 & H). apply bind_ok in H as ([[c e] d] & HL & H).
    injection H as <- <-.
    destruct (loop_spec fitE predictE n (start st) mi mask w Xs Xt (rows_of is_source sd y) _ _ Hn MM C n 0 (start st) e0 c e d) as (-> & GT & MD & LP).
    - lia.
    - constructor. now rewrite Nat.mul_0_r, Nat.add_0_r.
    - exact HL.
    - split; [now apply LP|]. split; [exact MD|]. exists e. split; [reflexivity|exact GT].
  Qed.

(** C58. The data generated at step [t]: one sample per kept pair (source, target), at fraction t / n between the two; at the last step
    it is the target sample. *)
Theorem C58_interpolated alpha n advanced w st X y sd gamma st' data :
  (0 <= alpha)%R -> 0 < n -> length X = length sd -> length y = length sd -> Forall (fun r => length r = w) X ->
  let Xs := rows_of is_source sd X in let Xt := rows_of is_target sd X in
  coupling Xs (rows_of is_source sd y) Xt (rows_of is_target sd y) = Ok gamma ->
  matrix (length Xs) (length Xt) gamma -> 0 < length Xs -> 0 < length Xt ->
  fit alpha n advanced w st X y sd = Ok (st', data) ->
  exists pairs, NoDup pairs /\ Forall (fun p => fst p < length Xs /\ snd p < length Xt) pairs /\ length data = n /\
    (forall t, 1 <= t <= n -> fst (nth (t - 1) data ([], [])) = map (fun p => between n t (nth (fst p) Xs []) (nth (snd p) Xt [])) pairs) /\
    fst (nth (n - 1) data ([], [])) = map (fun p => nth (snd p) Xt []) pairs.
Proof.
  intros Ha Hn LX Ly HW Xs Xt HC M Hs Ht H.
  destruct (fit_inv alpha n advanced w st X y sd gamma st' data Ha Hn LX Ly HC M Hs Ht H) as (mi & mask & _ & MM & LP & MD & _). fold Xs Xt in MM, LP, MD.
  set (pairs := set_pairs mask (length Xs) (length Xt)) in *. exists pairs.
  assert (RG : Forall (fun p => fst p < length Xs /\ snd p < length Xt) pairs).
  { apply Forall_forall. intros [i j] Hij. apply set_pairs_In in Hij. cbn. lia. }
  assert (LD : length data = n) by (apply (f_equal (@length _)) in MD; now rewrite !map_length, seq_length in MD).
  assert (ST : forall t, 1 <= t <= n -> fst (nth (t - 1) data ([], [])) = map (step_row n t Xs Xt) pairs).
  { intros t Hr. rewrite <- (map_nth fst). cbn [fst]. rewrite MD. rewrite (nth_indep _ [] (map (step_row n 0 Xs Xt) pairs)) by (rewrite map_length, seq_length; lia).
    rewrite (map_nth (fun t => map (step_row n t Xs Xt) pairs)). rewrite seq_nth by lia. now replace (1 + (t - 1)) with t by lia. }
  split; [apply set_pairs_NoDup|]. split; [exact RG|]. split; [exact LD|]. split; [exact ST|].
  rewrite ST by lia. apply map_ext_in. intros [i j] Hij. rewrite Forall_forall in RG. destruct (RG _ Hij) as [Hi Hj]. cbn [fst snd] in *.
  unfold step_row. cbn [fst snd]. apply between_end; [auto|].
  assert (W : forall p (r : list R), In r (rows_of p sd X) -> length r = w).
  { intros p r Hr. rewrite rows_of_select in Hr. apply select_incl in Hr. rewrite Forall_forall in HW. auto. }
  rewrite (W is_source), (W is_target); auto; apply nth_In; auto.
Qed.

(** C59. Number and choice of the kept pairs in a fit that does not raise. *)
Theorem C59_number_of_samples alpha n w st X y sd gamma st' data :
  (0 <= alpha)%R -> 0 < n -> length X = length sd -> length y = length sd ->
  let Xs := rows_of is_source sd X in let Xt := rows_of is_target sd X in
  coupling Xs (rows_of is_source sd y) Xt (rows_of is_target sd y) = Ok gamma ->
  matrix (length Xs) (length Xt) gamma -> 0 < length Xs -> 0 < length Xt ->
  fit alpha n false w st X y sd = Ok (st', data) ->
  exists mi pairs, (0 <= IZR mi)%R /\
    (IZR mi <= Rmin (alpha * INR (length Xs + length Xt)) (INR (length Xs * length Xt) - 1) < IZR mi + 1)%R /\
    Z.of_nat (length pairs) = (mi + 1)%Z /\ NoDup pairs /\
    (forall i j i' j', In (i, j) pairs -> i' < length Xs -> j' < length Xt -> ~ In (i', j') pairs ->
       (entry 0%R gamma i' j' < entry 0%R gamma i j)%R) /\
    map fst data = map (fun t => map (fun p => between n t (nth (fst p) Xs []) (nth (snd p) Xt [])) pairs) (seq 1 n).
Proof.
  intros Ha Hn LX Ly Xs Xt HC M Hs Ht H.
  destruct (fit_inv alpha n false w st X y sd gamma st' data Ha Hn LX Ly HC M Hs Ht H) as (mi & mask & E & MM & LP & MD & _). fold Xs Xt in E, MM, LP, MD.
  destruct (cut_off_spec alpha gamma _ _ Ha M Hs Ht) as (mi1 & mask1 & th & E1 & EM & EI & BI & _). fold Xs Xt in E1, EI, BI.
  rewrite E1 in E. injection E as -> ->.
  exists mi, (set_pairs mask (length Xs) (length Xt)).
  assert (P : 0 < length Xs * length Xt) by (apply Nat.mul_pos_pos; auto).
  set (z := Rmin (alpha * INR (length Xs + length Xt)) (IZR (Z.of_nat (length Xs * length Xt) - 1))) in *.
  assert (Z0 : (0 <= z)%R).
  { apply Rmin_glb; [apply Rmult_le_pos; [auto|apply pos_INR]|apply (IZR_le 0); lia]. }
  assert (ZE : z = Rmin (alpha * INR (length Xs + length Xt)) (INR (length Xs * length Xt) - 1)).
  { unfold z. now rewrite minus_IZR, <- INR_IZR_INZ. }
  split; [apply (IZR_le 0); lia|]. split.
  { rewrite <- ZE. rewrite EI. unfold py_int. destruct (Rle_dec 0 z); [|lra]. destruct (base_Int_part z). lra. }
  split; [exact LP|]. split; [apply set_pairs_NoDup|]. split; [|exact MD].
  intros i j i' j' Hij Hi' Hj' N. apply set_pairs_In in Hij as (Hi & Hj & T). rewrite EM in T.
  rewrite (entry_map _ 0%R false (length Xs) (length Xt)) in T by auto. apply Rleb_iff in T.
  destruct (Rlt_dec (entry 0%R gamma i' j') (entry 0%R gamma i j)) as [|G]; [assumption|]. exfalso. apply N. apply set_pairs_In.
  repeat split; auto. rewrite EM, (entry_map _ 0%R false (length Xs) (length Xt)) by auto. apply Rleb_iff. lra.
Qed.

Theorem C59_advanced alpha n w st X y sd gamma st' data :
  (0 <= alpha)%R -> 0 < n -> length X = length sd -> length y = length sd ->
  let Xs := rows_of is_source sd X in let Xt := rows_of is_target sd X in
  coupling Xs (rows_of is_source sd y) Xt (rows_of is_target sd y) = Ok gamma ->
  matrix (length Xs) (length Xt) gamma -> 0 < length Xs -> 0 < length Xt ->
  fit alpha n true w st X y sd = Ok (st', data) ->
  exists pairs, NoDup pairs /\
    (forall i j, In (i, j) pairs <-> i < length Xs /\ j < length Xt /\
       (best (fun q => q < length Xt) (fun q => entry 0%R gamma i q) j \/ best (fun q => q < length Xs) (fun q => entry 0%R gamma q j) i)) /\
    (forall i, i < length Xs -> exists j, In (i, j) pairs) /\ (forall j, j < length Xt -> exists i, In (i, j) pairs) /\
    map fst data = map (fun t => map (fun p => between n t (nth (fst p) Xs []) (nth (snd p) Xt [])) pairs) (seq 1 n).
Proof.
  intros Ha Hn LX Ly Xs Xt HC M Hs Ht H.
  destruct (fit_inv alpha n true w st X y sd gamma st' data Ha Hn LX Ly HC M Hs Ht H) as (mi & mask & E & MM & LP & MD & _). fold Xs Xt in E, MM, LP, MD.
  destruct (advanced_spec gamma _ _ M Hs Ht) as (mi1 & mask1 & E1 & _ & _ & IFF). fold Xs Xt in E1, IFF. rewrite E1 in E. injection E as -> ->.
  exists (set_pairs mask (length Xs) (length Xt)). split; [apply set_pairs_NoDup|].
  assert (A : forall i j, In (i, j) (set_pairs mask (length Xs) (length Xt)) <-> i < length Xs /\ j < length Xt /\
       (best (fun q => q < length Xt) (fun q => entry 0%R gamma i q) j \/ best (fun q => q < length Xs) (fun q => entry 0%R gamma q j) i)).
  { intros i j. rewrite set_pairs_In. split; intros (Hi & Hj & T); (split; [auto|]; split; [auto|]); now apply IFF. }
  split; [exact A|]. split; [|split; [|exact MD]].
  - intros i Hi. destruct (best_exists (fun q => q < length Xt) (fun q => entry 0%R gamma i q) (length Xt)) as [j Hj]; [intros; lia|exists 0; auto|auto|].
    exists j. apply A. split; [auto|]. split; [apply Hj|]. now left.
  - intros j Hj. destruct (best_exists (fun q => q < length Xs) (fun q => entry 0%R gamma q j) (length Xs)) as [i Hi]; [intros; lia|exists 0; auto|auto|].
    exists i. apply A. split; [apply Hi|]. split; [auto|]. now right.
Qed.

(** No error when the coefficients of the plan are pairwise different, or in advanced mode. *)
Theorem C59_completes_partial alpha n advanced w st X y sd gamma :
  (0 <= alpha)%R -> length X = length sd -> length y = length sd -> Forall (fun r => length r = w) X ->
  let Xs := rows_of is_source sd X in let Xt := rows_of is_target sd X in
  coupling Xs (rows_of is_source sd y) Xt (rows_of is_target sd y) = Ok gamma ->
  matrix (length Xs) (length Xt) gamma -> 0 < length Xs -> 0 < length Xt ->
  advanced = true \/ NoDup (concat gamma) -> (forall c A l, exists e, fitE c A l = Ok e) ->
  exists r, fit alpha n advanced w st X y sd = Ok r.
Proof.
  intros Ha LX Ly HW Xs Xt HC M Hs Ht HN HF. unfold gradual_fit. cbv zeta.
  rewrite (proj1 (select_rows X sd LX)), (proj2 (select_rows X sd LX)), (proj1 (select_rows y sd Ly)), (proj2 (select_rows y sd Ly)).
  cbn [bind]. fold Xs Xt. rewrite HC. cbn [bind].
  assert (CM : exists mi mask, (if advanced then advanced_cut_off_gamma gamma (length Xt) else cut_off_gamma alpha gamma (length Xt)) = Ok (mi, mask) /\
    matrix (length Xs) (length Xt) mask /\ (0 <= mi + 1)%Z /\ Z.of_nat (count (concat mask)) = (mi + 1)%Z).
  { destruct advanced.
    - destruct (advanced_spec gamma _ _ M Hs Ht) as (mi & mask & E & MM & C & _). exists mi, mask. split; [exact E|]. split; [exact MM|]. lia.
    - destruct HN as [|HN]; [discriminate|].
      destruct (cut_off_spec alpha gamma _ _ Ha M Hs Ht) as (mi & mask & th & E & -> & _ & B & _ & C & _).
      exists mi. eexists. split; [exact E|]. split; [now apply map_matrix|]. split; [lia|now apply C]. }
  destruct CM as (mi & mask & E & MM & P & C). rewrite E. cbn [bind fst snd]. fold (start st).
  destruct (HF (start st) Xs (rows_of is_source sd y)) as [e0 E0]. rewrite E0. cbn [bind].
  assert (W : forall p, Forall (fun r => length r = w) (rows_of p sd X)).
  { intros p. apply Forall_forall. intros r Hr. rewrite rows_of_select in Hr. apply select_incl in Hr. rewrite Forall_forall in HW. auto. }
  destruct (gradual_loop_total fitE predictE n mi mask w Xs Xt _ _ HF (W is_source) (W is_target) MM eq_refl eq_refl P C (seq 1 n) (start st) e0) as [[[c e] d] ->].
  cbn [bind]. eauto.
Qed.

(** Ties: with the default alpha = 1, a constant plan between ns and nt samples, ns + nt < ns nt - 1, makes fit raise. *)
Theorem C59_ties_refuted n w st X y sd c e0 : 0 < n -> length X = length sd -> length y = length sd -> Forall (fun r => length r = w) X ->
  let Xs := rows_of is_source sd X in let Xt := rows_of is_target sd X in
  length Xs + length Xt + 1 < length Xs * length Xt ->
  coupling Xs (rows_of is_source sd y) Xt (rows_of is_target sd y) = Ok (repeat (repeat c (length Xt)) (length Xs)) ->
  fitE (start st) Xs (rows_of is_source sd y) = Ok e0 ->
  fit 1 n false w st X y sd = Err IndexError.
Proof.
  intros Hn LX Ly HW Xs Xt HL HC E0. unfold gradual_fit. cbv zeta.
  rewrite (proj1 (select_rows X sd LX)), (proj2 (select_rows X sd LX)), (proj1 (select_rows y sd Ly)), (proj2 (select_rows y sd Ly)).
  cbn [bind]. fold Xs Xt. rewrite HC. cbn [bind].
  assert (Hs : 0 < length Xs) by (destruct (length Xs); lia). assert (Ht : 0 < length Xt) by (destruct (length Xt); lia).
  set (gamma := repeat (repeat c (length Xt)) (length Xs)) in *.
  assert (M : matrix (length Xs) (length Xt) gamma) by apply const_matrix.
  destruct (cut_off_spec 1 gamma _ _ ltac:(lra) M Hs Ht) as (mi & mask & th & E & EM & EI & _ & _ & _ & IT).
  assert (TH : th = c).
  { unfold gamma in IT. rewrite concat_const in IT. now apply repeat_spec in IT. }
  assert (MI : mi = Z.of_nat (length Xs + length Xt)).
  { rewrite EI, Rmult_1_l, INR_IZR_INZ, Rmin_left by (apply IZR_le; lia). apply py_int_IZR. lia. }
  assert (CT : count (concat mask) = length Xs * length Xt).
  { rewrite EM, <- concat_map. unfold gamma. rewrite concat_const, count_map_filter, filter_all, repeat_length; [reflexivity|].
    intros x Hx. apply repeat_spec in Hx. subst. apply Rleb_iff. lra. }
  assert (MM : matrix (length Xs) (length Xt) mask) by (rewrite EM; now apply map_matrix).
  rewrite E. cbn [bind fst snd]. fold (start st). rewrite E0. cbn [bind].
  destruct n as [|n]; [lia|]. cbn [seq gradual_loop].
  assert (D : data_at_step (S n) 1 mi mask w Xs Xt = Err IndexError).
  { unfold data_at_step. destruct (Z.ltb_spec (mi + 1) 0); [lia|].
    assert (W : forall p, Forall (fun r => length r = w) (rows_of p sd X)).
    { intros p. apply Forall_forall. intros r Hr. rewrite rows_of_select in Hr. apply select_incl in Hr. rewrite Forall_forall in HW. auto. }
    apply (fill_too_many _ _ _ _ w); auto; try (apply W).
    - rewrite (argwhere_pairs (length Xs) (length Xt)) by auto. apply Forall_forall. intros [i j] Hij. apply set_pairs_In in Hij. cbn. lia.
    - lia.
    - rewrite argwhere_length, repeat_length, CT. lia. }
  rewrite D. reflexivity.
Qed.

(** C93. Target labels only reach the transport method. *)
Theorem C93_only_through_the_plan alpha n advanced w st X y y' sd :
  length X = length sd -> length y = length sd -> length y' = length sd ->
  rows_of is_source sd y = rows_of is_source sd y' ->
  coupling (rows_of is_source sd X) (rows_of is_source sd y) (rows_of is_target sd X) (rows_of is_target sd y) =
  coupling (rows_of is_source sd X) (rows_of is_source sd y') (rows_of is_target sd X) (rows_of is_target sd y') ->
  fit alpha n advanced w st X y sd = fit alpha n advanced w st X y' sd.
Proof.
  intros LX L L' E EC. unfold gradual_fit. cbv zeta.
  rewrite (proj1 (select_rows X sd LX)), (proj2 (select_rows X sd LX)), (proj1 (select_rows y sd L)), (proj2 (select_rows y sd L)),
    (proj1 (select_rows y' sd L')), (proj2 (select_rows y' sd L')). cbn [bind]. rewrite EC, E. reflexivity.
Qed.

(** C94. fit raises max_iter of the base estimator by 100 per step, and the next fit starts from there. *)
Theorem C94_max_iter_grows alpha n advanced w st X y sd gamma st' data :
  (0 <= alpha)%R -> 0 < n -> length X = length sd -> length y = length sd ->
  coupling (rows_of is_source sd X) (rows_of is_source sd y) (rows_of is_target sd X) (rows_of is_target sd y) = Ok gamma ->
  matrix (how_many is_source sd) (how_many is_target sd) gamma -> 0 < how_many is_source sd -> 0 < how_many is_target sd ->
  fit alpha n advanced w st X y sd = Ok (st', data) -> g_max_iter _ st' = Some (start st + 100 * n).
Proof.
  intros Ha Hn LX Ly HC M Hs Ht H. rewrite <- (rows_of_length is_source sd X) in M, Hs by auto. rewrite <- (rows_of_length is_target sd X) in M, Ht by auto.
  destruct (fit_inv alpha n advanced w st X y sd gamma st' data Ha Hn LX Ly HC M Hs Ht H) as (mi & mask & _ & _ & _ & _ & e & -> & _). reflexivity.
Qed.

(** C97. The classifier at step [t] is trained on the data of step [t] labelled by the previous one; predict uses the last. *)
Theorem C97_self_training alpha n advanced w st X y sd gamma st' data Q :
  (0 <= alpha)%R -> 0 < n -> length X = length sd -> length y = length sd ->
  coupling (rows_of is_source sd X) (rows_of is_source sd y) (rows_of is_target sd X) (rows_of is_target sd y) = Ok gamma ->
  matrix (how_many is_source sd) (how_many is_target sd) gamma -> 0 < how_many is_source sd -> 0 < how_many is_target sd ->
  fit alpha n advanced w st X y sd = Ok (st', data) ->
  exists mi e, gradually_trained fitE predictE mi (rows_of is_source sd X) (rows_of is_source sd y) (fun t => fst (nth (t - 1) data ([], []))) n e /\
    gradual_predict Est predictE st' Q = Ok (map (predictE e) Q).
Proof.
  intros Ha Hn LX Ly HC M Hs Ht H. rewrite <- (rows_of_length is_source sd X) in M, Hs by auto. rewrite <- (rows_of_length is_target sd X) in M, Ht by auto.
  destruct (fit_inv alpha n advanced w st X y sd gamma st' data Ha Hn LX Ly HC M Hs Ht H) as (mi & mask & _ & _ & _ & MD & e & -> & GT).
  exists (fun t => start st + 100 * t), e. split; [|reflexivity]. clear HC.
  set (pairs := set_pairs _ _ _) in *. set (Xs := rows_of is_source sd X) in *. set (Xt := rows_of is_target sd X) in *.
  assert (ST : forall t, 1 <= t <= n -> map (step_row n t Xs Xt) pairs = fst (nth (t - 1) data ([], []))).
  { intros t Hr. rewrite <- (map_nth fst). cbn [fst]. rewrite MD. rewrite (nth_indep _ [] (map (step_row n 0 Xs Xt) pairs)) by (rewrite map_length, seq_length; lia).
    rewrite (map_nth (fun t => map (step_row n t Xs Xt) pairs)). rewrite seq_nth by lia. now replace (1 + (t - 1)) with t by lia. }
  cbv zeta in GT. assert (G : forall t e, gradually_trained fitE predictE (fun t => start st + 100 * t) Xs (rows_of is_source sd y) (fun t => map (step_row n t Xs Xt) pairs) t e ->
    t <= n -> gradually_trained fitE predictE (fun t => start st + 100 * t) Xs (rows_of is_source sd y) (fun t => fst (nth (t - 1) data ([], []))) t e).
  { clear - ST. induction 1 as [e HF|t e e' GT IH HF]; intros Ht; [now constructor|]. eapply gt_next; [apply IH; lia|]. rewrite <- ST by lia. exact HF. }
  apply G; auto.
Qed.
End Gradual.

(** ** Concrete runs: two sources, two targets on the line; the state of the classifier is its max_iter. *)
Definition gx : list (list R) := [[0]; [4]; [8]; [10]]%R.
Definition gy : list val := [VNum 0; VNum 1; VNum (-1); VNum (-1)].
Definition gsd : list Z := [1; 1; -2; -2]%Z.
Definition g_plan (Xs : list (list R)) (ys : list val) (Xt : list (list R)) (yt : list val) : res (list (list R)) := Ok [[4; 2]; [1; 3]]%R.
(** A plan that uses the labels of the targets, as the semi-supervised cost of the transport methods does. *)
Definition g_plan_y (Xs : list (list R)) (ys : list val) (Xt : list (list R)) (yt : list val) : res (list (list R)) :=
  match yt with [VNum p; _] => if (Qnum p =? 1)%Z then Ok [[1; 4]; [3; 2]]%R else Ok [[4; 2]; [1; 3]]%R | _ => Ok [[4; 2]; [1; 3]]%R end.
Definition g_fit (mi : nat) (A : list (list R)) (b : list val) : res (nat * list (list R)) := Ok (mi, A).
Definition g_label (e : nat * list (list R)) (x : list R) : val := VNum (inject_Z (Z.of_nat (fst e))).
Definition g_new : gstate (nat * list (list R)) := mkG _ None None.

Lemma g_runs plan st : (exists gamma, plan (rows_of is_source gsd gx) (rows_of is_source gsd gy) (rows_of is_target gsd gx) (rows_of is_target gsd gy) = Ok gamma
     /\ matrix 2 2 gamma /\ NoDup (concat gamma)) ->
  exists st' data, gradual_fit _ plan g_fit g_label 1 2 false 1 st gx gy gsd = Ok (st', data).
Proof.
  intros (gamma & E & M & N).
  destruct (C59_completes_partial plan g_fit g_label 1 2 false 1 st gx gy gsd gamma) as [[st' d] H]; auto; try lra; try reflexivity.
  - repeat constructor.
  - cbn. lia.
  - cbn. lia.
  - intros. eexists. reflexivity.
  - eauto.
Qed.
Lemma g_matrix : matrix 2 2 [[4; 2]; [1; 3]]%R /\ NoDup (concat [[4; 2]; [1; 3]]%R).
Proof. split; [split; repeat constructor|]. cbn. repeat constructor; cbn; intuition lra. Qed.

Example C58_ex : exists st' data, gradual_fit _ g_plan g_fit g_label 1 2 false 1 g_new gx gy gsd = Ok (st', data) /\ length data = 2.
Proof.
  destruct (g_runs g_plan g_new) as (st' & d & H); [exists [[4; 2]; [1; 3]]%R; split; [reflexivity|apply g_matrix]|].
  exists st', d. split; [exact H|].
  destruct (C58_interpolated g_plan g_fit g_label 1 2 false 1 g_new gx gy gsd [[4; 2]; [1; 3]]%R st' d) as (pairs & _ & _ & L & _); auto; try lra; try reflexivity.
  - repeat constructor.
  - apply g_matrix.
  - cbn. lia.
  - cbn. lia.
Qed.

(** The hypotheses of the refutation: 3 sources, 3 targets, uniform plan. *)
Example C59_ties_ex : gradual_fit _ (fun Xs ys Xt yt => Ok (repeat (repeat (1 / 9)%R 3) 3)) g_fit g_label 1 10 false 1 g_new
  [[0]; [1]; [2]; [5]; [6]; [7]]%R [VNum 0; VNum 1; VNum 0; VNum (-1); VNum (-1); VNum (-1)] [1; 1; 1; -2; -2; -2]%Z = Err IndexError.
Proof.
  apply (C59_ties_refuted _ g_fit g_label 10 1 g_new _ _ _ (1 / 9)%R (100, [[0]; [1]; [2]]%R)); try reflexivity; try (cbn; lia). repeat constructor.
Qed.

(** C93: with a plan that uses the labels, the data of the steps depend on the target labels. *)
Theorem C93_target_labels_used_refuted : exists st1 d1 st2 d2,
  gradual_fit _ g_plan_y g_fit g_label 0 1 false 1 g_new gx [VNum 0; VNum 1; VNum 0; VNum 1] gsd = Ok (st1, d1) /\
  gradual_fit _ g_plan_y g_fit g_label 0 1 false 1 g_new gx [VNum 0; VNum 1; VNum 1; VNum 0] gsd = Ok (st2, d2) /\
  rows_of is_source gsd [VNum 0; VNum 1; VNum 0; VNum 1] = rows_of is_source gsd [VNum 0; VNum 1; VNum 1; VNum 0] /\
  map fst d1 <> map fst d2.
Proof.
  assert (G1 : matrix 2 2 [[4; 2]; [1; 3]]%R /\ NoDup (concat [[4; 2]; [1; 3]]%R)) by apply g_matrix.
  assert (G2 : matrix 2 2 [[1; 4]; [3; 2]]%R /\ NoDup (concat [[1; 4]; [3; 2]]%R)).
  { split; [split; repeat constructor|]. cbn. repeat constructor; cbn; intuition lra. }
  set (y1 := [VNum 0; VNum 1; VNum 0; VNum 1]). set (y2 := [VNum 0; VNum 1; VNum 1; VNum 0]).
  assert (W : Forall (fun r : list R => length r = 1) gx) by repeat constructor.
  destruct (C59_completes_partial g_plan_y g_fit g_label 0 1 false 1 g_new gx y1 gsd [[4; 2]; [1; 3]]%R) as [[st1 d1] H1];
    auto; try lra; try reflexivity; try apply G1; try (cbn; lia); [right; apply G1|intros; eexists; reflexivity|].
  destruct (C59_completes_partial g_plan_y g_fit g_label 0 1 false 1 g_new gx y2 gsd [[1; 4]; [3; 2]]%R) as [[st2 d2] H2];
    auto; try lra; try reflexivity; try apply G2; try (cbn; lia); [right; apply G2|intros; eexists; reflexivity|].
  exists st1, d1, st2, d2. split; [exact H1|]. split; [exact H2|]. split; [reflexivity|].
  destruct (C59_number_of_samples g_plan_y g_fit g_label 0 1 1 g_new gx y1 gsd [[4; 2]; [1; 3]]%R st1 d1) as (m1 & p1 & P1 & B1 & L1 & N1 & T1 & D1);
    auto; try lra; try reflexivity; try apply G1; try (cbn; lia).
  destruct (C59_number_of_samples g_plan_y g_fit g_label 0 1 1 g_new gx y2 gsd [[1; 4]; [3; 2]]%R st2 d2) as (m2 & p2 & P2 & B2 & L2 & N2 & T2 & D2);
    auto; try lra; try reflexivity; try apply G2; try (cbn; lia).
  change (rows_of is_source gsd gx) with [[0]; [4]]%R in *. change (rows_of is_target gsd gx) with [[8]; [10]]%R in *. cbn [length] in *.
  assert (M1 : m1 = 0%Z).
  { apply eq_IZR. rewrite Rmult_0_l in B1. rewrite Rmin_left in B1 by (simpl; lra). apply IZR_eq. destruct B1 as [B1 _]. apply (le_IZR m1 0) in B1. apply (le_IZR 0) in P1. lia. }
  assert (M2 : m2 = 0%Z).
  { apply eq_IZR. rewrite Rmult_0_l in B2. rewrite Rmin_left in B2 by (simpl; lra). apply IZR_eq. destruct B2 as [B2 _]. apply (le_IZR m2 0) in B2. apply (le_IZR 0) in P2. lia. }
  subst m1 m2.
  assert (I1 : p1 = [(0, 0)]).
  { destruct p1 as [|[i j] [|]]; cbn [length] in L1; try lia. f_equal.
    assert (D : (i, j) = (0, 0) \/ (i, j) <> (0, 0)) by (destruct (Nat.eq_dec i 0), (Nat.eq_dec j 0); subst; auto; right; congruence).
    destruct D as [D|D]; [exact D|exfalso].
    assert (T : (entry 0%R [[4; 2]; [1; 3]]%R 0 0 < entry 0%R [[4; 2]; [1; 3]]%R i j)%R).
    { apply T1; try lia; [now left|]. intros [Q|[]]. auto. }
    revert T. unfold entry. destruct i as [|[|[|]]]; destruct j as [|[|[|]]]; cbn; lra. }
  assert (I2 : p2 = [(0, 1)]).
  { destruct p2 as [|[i j] [|]]; cbn [length] in L2; try lia. f_equal.
    assert (D : (i, j) = (0, 1) \/ (i, j) <> (0, 1)) by (destruct (Nat.eq_dec i 0), (Nat.eq_dec j 1); subst; auto; right; congruence).
    destruct D as [D|D]; [exact D|exfalso].
    assert (T : (entry 0%R [[1; 4]; [3; 2]]%R 0 1 < entry 0%R [[1; 4]; [3; 2]]%R i j)%R).
    { apply T2; try lia; [now left|]. intros [Q|[]]. auto. }
    revert T. unfold entry. destruct i as [|[|[|]]]; destruct j as [|[|[|]]]; cbn; lra. }
  subst p1 p2. rewrite D1, D2. cbn [seq map fst snd nth].
  assert (Q1 : between 1 1 [0%R] [8%R] = [8%R]) by (apply between_end; auto).
  assert (Q2 : between 1 1 [0%R] [10%R] = [10%R]) by (apply between_end; auto).
  rewrite Q1, Q2. intros Q. injection Q as Q. lra.
Qed.

(** The conditions of C93's positive part are met by a plan that looks at the samples only. *)
Example C93_ex alpha n advanced : gradual_fit _ g_plan g_fit g_label alpha n advanced 1 g_new gx gy gsd =
  gradual_fit _ g_plan g_fit g_label alpha n advanced 1 g_new gx [VNum 0; VNum 1; VNum 1; VNum 0] gsd.
Proof. apply C93_only_through_the_plan; reflexivity. Qed.

(** C94: fitting the same object twice on the same data gives two different classifiers. *)
Theorem C94_refit_refuted : exists st1 d1 st2 d2,
  gradual_fit _ g_plan g_fit g_label 1 2 false 1 g_new gx gy gsd = Ok (st1, d1) /\
  gradual_fit _ g_plan g_fit g_label 1 2 false 1 st1 gx gy gsd = Ok (st2, d2) /\
  g_max_iter _ g_new <> g_max_iter _ st1 /\ g_max_iter _ st1 <> g_max_iter _ st2 /\
  gradual_predict _ g_label st1 [[0%R]] <> gradual_predict _ g_label st2 [[0%R]].
Proof.
  assert (HP : exists gamma, g_plan (rows_of is_source gsd gx) (rows_of is_source gsd gy) (rows_of is_target gsd gx) (rows_of is_target gsd gy) = Ok gamma
     /\ matrix 2 2 gamma /\ NoDup (concat gamma)) by (exists [[4; 2]; [1; 3]]%R; split; [reflexivity|apply g_matrix]).
  destruct (g_runs g_plan g_new HP) as (st1 & d1 & H1). destruct (g_runs g_plan st1 HP) as (st2 & d2 & H2).
  exists st1, d1, st2, d2. split; [exact H1|]. split; [exact H2|].
  assert (K : forall st st' d, gradual_fit _ g_plan g_fit g_label 1 2 false 1 st gx gy gsd = Ok (st', d) ->
    g_max_iter _ st' = Some (start st + 100 * 2) /\ gradual_predict _ g_label st' [[0%R]] = Ok [VNum (inject_Z (Z.of_nat (start st + 100 * 2)))]).
  { intros st st' d H.
    destruct (fit_inv g_plan g_fit g_label 1 2 false 1 st gx gy gsd [[4; 2]; [1; 3]]%R st' d) as (mi & mask & _ & _ & _ & _ & e & -> & GT);
      auto; try lra; try reflexivity; try apply g_matrix; try (cbn; lia).
    split; [reflexivity|]. inversion GT as [|t e1 e2 _ HF E1 E2]; subst. unfold g_fit in HF. injection HF as <-. reflexivity. }
  destruct (K _ _ _ H1) as [A1 B1]. destruct (K _ _ _ H2) as [A2 B2].
  assert (S1 : start st1 = 300) by (unfold start; now rewrite A1). rewrite A1, A2, B1, B2, S1.
  split; [discriminate|]. split; [discriminate|]. intros Q. discriminate Q.
Qed.

Example C97_ex : exists st' data mi e,
  gradual_fit _ g_plan g_fit g_label 1 2 false 1 g_new gx gy gsd = Ok (st', data) /\
  gradually_trained g_fit g_label mi [[0]; [4]]%R [VNum 0; VNum 1] (fun t => fst (nth (t - 1) data ([], []))) 2 e /\
  gradual_predict _ g_label st' gx = Ok (map (g_label e) gx).
Proof.
  destruct (g_runs g_plan g_new) as (st' & d & H); [exists [[4; 2]; [1; 3]]%R; split; [reflexivity|apply g_matrix]|].
  destruct (C97_self_training g_plan g_fit g_label 1 2 false 1 g_new gx gy gsd [[4; 2]; [1; 3]]%R st' d gx) as (mi & e & G & P);
    auto; try lra; try reflexivity; try apply g_matrix; try (cbn; lia).
  exists st', d, mi, e. auto.
Qed.

Example C59_advanced_ex : exists st' data pairs,
  gradual_fit _ g_plan g_fit g_label 1 2 true 1 g_new gx gy gsd = Ok (st', data) /\
  (forall i, i < 2 -> exists j, In (i, j) pairs) /\ (forall j, j < 2 -> exists i, In (i, j) pairs) /\
  map fst data = map (fun t => map (fun p => between 2 t (nth (fst p) [[0]; [4]]%R []) (nth (snd p) [[8]; [10]]%R [])) pairs) (seq 1 2).
Proof.
  destruct (C59_completes_partial g_plan g_fit g_label 1 2 true 1 g_new gx gy gsd [[4; 2]; [1; 3]]%R) as [[st' d] H];
    auto; try lra; try reflexivity; try apply g_matrix; try (cbn; lia); [repeat constructor|intros; eexists; reflexivity|].
  destruct (C59_advanced g_plan g_fit g_label 1 2 1 g_new gx gy gsd [[4; 2]; [1; 3]]%R st' d) as (pairs & _ & _ & A & B & C);
    auto; try lra; try reflexivity; try apply g_matrix; try (cbn; lia).
  exists st', d, pairs. auto.
Qed.
