(** Theorems about the mapping and subspace adapters: C40-C43, C84-C87. *)
From Coq Require Import List ZArith QArith Bool Arith Lia Reals Lra Psatz.
From Verif Require Import Np NpFacts Labels Spec SpecFacts UtilsModel UtilsSpec UtilsProofs UtilsProofs2 SelectModel RVec RVecFacts
  MapModel MapSpec MapProofs RMat MapProofs2 MapProofs3.
Import ListNotations.
Local Open Scope nat_scope.

(** * C40: the OT mapping adapters keep target rows and map the k-th source row to the k-th mapped row *)
Theorem C40_ot_transform : forall allow transport X sda,
  usable allow (a_len X) sda -> table X ->
  let sd := eff_domain (a_len X) sda in
  (some_label is_source sd -> exists s', transport (half is_source sd X) = Ok s' /\ a_dt s' = DFloat /\
     a_tail s' = a_tail X /\ a_len s' = a_len (half is_source sd X)) ->
  exists m, ot_transform allow transport X sda = Ok m /\
    a_len m = a_len X /\
    rows_of is_target sd (a_rows m) = rows_of is_target sd (a_rows X) /\
    (some_label is_source sd -> forall s', transport (half is_source sd X) = Ok s' -> rows_of is_source sd (a_rows m) = a_rows s') /\
    (~ some_label is_source sd -> a_rows m = a_rows X).
Proof.
  intros allow transport X sda U [Tp Tw] sd HT.
  assert (HL : length sd = a_len X) by apply U.
  assert (SL : some_label is_source sd <-> 0 < how_many is_source sd).
  { split.
    - intros [a [Ha Hp]]. destruct (how_many is_source sd) eqn:Z; [|lia].
      rewrite (proj1 (how_many_0 _ _) Z a Ha) in Hp. discriminate.
    - intros H. unfold how_many in H. destruct (filter is_source sd) as [|a l] eqn:Z; [simpl in H; lia|].
      assert (In a (filter is_source sd)) as Ha by (rewrite Z; now left). apply filter_In in Ha. exists a. exact Ha. }
  assert (Lh := half_len is_source sd X HL). assert (Lt := half_len is_target sd X HL).
  assert (Q : exists s', (if 0 <? how_many is_source sd then transport (half is_source sd X) else Ok (half is_source sd X)) = Ok s' /\
     a_len s' = how_many is_source sd /\ a_tail s' = a_tail X /\ (0 < a_len s' -> a_dt s' = DFloat) /\ (how_many is_source sd = 0 -> s' = half is_source sd X)).
  { destruct (Nat.ltb_spec 0 (how_many is_source sd)) as [K|K].
    - destruct (HT (proj2 SL K)) as [s' [E [D [T L]]]]. exists s'. repeat split; auto; try lia.
    - exists (half is_source sd X). repeat split; auto. rewrite Lh. lia. }
  destruct Q as [s' [E [L [T [D Z]]]]].
  destruct (split_map_merge_ok allow transport (fun t => Ok t) X sda s' (half is_target sd X) U) as [m [R [M _]]]; fold sd; auto.
  - destruct (0 <? how_many is_target sd); reflexivity.
  - intros _. rewrite T. exact Tp.
  - intros Hp Hi. rewrite D in Hi by auto. discriminate.
  - now apply half_wf.
  - exists m. fold sd in M. destruct M as [M1 [M2 M3]]. split; [exact R|].
    split; [unfold a_len at 1; rewrite M1; exact HL|]. split; [exact M3|]. split.
    + intros SS s'' E2. apply SL in SS. apply Nat.ltb_lt in SS. rewrite SS in E. rewrite E in E2. injection E2 as <-. exact M2.
    + intros NS. assert (how_many is_source sd = 0) as Z0 by (destruct (how_many is_source sd); auto; exfalso; apply NS, SL; lia).
      apply (rows_of_unique sd); auto.
      rewrite M2, (Z Z0). reflexivity.
Qed.

(** fit_transform = fit on exactly the source samples and labels and the target samples and labels, then transform. *)
Theorem C40_ot_fit_transform : forall tfit X y sda,
  usable true (a_len X) sda -> (forall l, y = Some l -> length l = a_len X) ->
  let sd := eff_domain (a_len X) sda in
  ot_fit tfit X y sda =
    tfit (half is_source sd X) (option_map (rows_of is_source sd) y) (half is_target sd X) (option_map (rows_of is_target sd) y) /\
  forall tr, ot_fit tfit X y sda = Ok tr -> ot_fit_transform tfit X y sda = ot_transform true tr X sda.
Proof.
  intros tfit X y sda U Hy sd. split.
  - unfold ot_fit. rewrite (check_usable _ _ _ U). cbn [bind]. fold sd.
    assert (Hsd : sd <> []) by (eapply usable_nonempty; eauto). assert (HL : length sd = a_len X) by apply U.
    rewrite split_halves by auto. cbn [bind].
    rewrite split_ok; auto; [|easy|].
    + cbn [flat_map app]. destruct y as [l|]; reflexivity.
    + intros xs [E|[]]. rewrite HL. now apply Hy.
  - intros tr E. unfold ot_fit_transform. now rewrite E.
Qed.

(** Without [allow_source=True] an input with source samples is rejected. *)
Theorem C40_sources_rejected : forall transport X sda,
  0 < a_len X -> some_label is_source (eff_domain (a_len X) sda) -> ot_transform false transport X sda = Err ValueError.
Proof. intros. unfold ot_transform, split_map_merge. now rewrite check_unusable. Qed.

Definition dbl (v : val) : val := match v with VNum q => VNum (Qred (q * 2)) | _ => v end.
Definition x_ex : arr := mkArr DInt [2] [[VNum 1; VNum 2]; [VNum 3; VNum 4]; [VNum 5; VNum 6]; [VNum 7; VNum 8]].
Definition tr_ex (a : arr) : res arr := Ok (mkArr DFloat (a_tail a) (map (map dbl) (a_rows a))).
Example C40_ex : ot_transform true tr_ex x_ex (SDArr [-1; 2; -3; 1]%Z) =
  Ok (mkArr DFloat [2] [[VNum 1; VNum 2]; [VNum 6; VNum 8]; [VNum 5; VNum 6]; [VNum 14; VNum 16]]) /\
  usable true 4 (SDArr [-1; 2; -3; 1]%Z) /\ table x_ex.
Proof.
  split; [vm_compute; reflexivity|]. split; [repeat split; simpl; auto; try lia; try discriminate|].
  split; [simpl; lia|]. intros _. unfold int_rows, x_ex. cbn [a_rows]. repeat constructor; eexists; reflexivity.
Qed.
Example C40_reject_ex : ot_transform false tr_ex x_ex (SDArr [-1; 2; -3; 1]%Z) = Err ValueError.
Proof. reflexivity. Qed.
Example C40_fit_ex : ot_fit (fun s ys t yt => if (a_len s =? 2) && (a_len t =? 2) then Ok tr_ex else Err ValueError) x_ex
  (Some [VNum 0; VNum 1; VNum 0; VNum 1]) (SDArr [-1; 2; -3; 1]%Z) = Ok tr_ex.
Proof. reflexivity. Qed.

(** * C41: row i of the output is the projection of sample i *)
Theorem C41_subspace_alignment : forall allow pca_s pca_t align f g h tl X sda,
  usable allow (a_len X) sda -> 0 < prod_tail tl ->
  row_by_row pca_s f tl -> row_by_row pca_t g tl -> row_by_row align h tl ->
  sa_transform allow pca_s pca_t align X sda =
  Ok (mkArr DFloat tl (by_side (fun x => h (f x)) g (eff_domain (a_len X) sda) (a_rows X))).
Proof.
  intros allow pca_s pca_t align f g h tl X sda U Htl Hf Hg Hh. unfold sa_transform. apply split_map_merge_rows; auto.
  intros a _. rewrite Hf. cbn [bind]. rewrite Hh. cbn [a_rows]. now rewrite map_map.
Qed.

Theorem C41_transfer_subspace : forall allow dotW f tl X sda,
  usable allow (a_len X) sda -> 0 < prod_tail tl -> row_by_row dotW f tl ->
  tsl_transform allow dotW X sda = Ok (mkArr DFloat tl (map f (a_rows X))).
Proof.
  intros allow dotW f tl X sda U Htl Hf. unfold tsl_transform.
  rewrite (split_map_merge_rows allow dotW dotW X sda f f tl); auto. do 2 f_equal. unfold by_side.
  assert (HL : length (eff_domain (a_len X) sda) = length (a_rows X)) by apply U.
  transitivity (map (fun p : Z * list val => f (snd p)) (combine (eff_domain (a_len X) sda) (a_rows X))).
  - apply map_ext. intros p. now destruct (is_source (fst p)).
  - rewrite <- (map_map snd f). f_equal. revert HL. generalize (a_rows X) as l. generalize (eff_domain (a_len X) sda) as sd. clear.
    induction sd; intros [|x l] HL; simpl in *; auto; try discriminate. f_equal. auto.
Qed.

(** Kernel projections (TCA, TJM) of data other than the training data: row i is the image of sample i. *)
Theorem C41_kernel_new_data : forall Row kern (eqb : list Row -> list Row -> bool) V Xs Xt X sda allow,
  (forall a b, eqb a b = true <-> a = b) -> usable allow (length X) sda ->
  let sd := eff_domain (length X) sda in
  (rows_of is_source sd X <> Xs \/ rows_of is_target sd X <> Xt) ->
  kernel_transform Row kern eqb allow Xs Xt V X sda = Ok (map (kernel_image kern (Xs ++ Xt) V) X).
Proof. intros. apply kernel_transform_new; auto. intros a b. apply H. Qed.

(** fit_transform of TCA and TJM: the images come in the order sources, then targets. *)
Theorem C41_kernel_block_order_partial : forall Row kern (eqb : list Row -> list Row -> bool) eig X sda V,
  (forall a b, eqb a b = true <-> a = b) -> (forall x y, kern x y = kern y x) -> usable true (length X) sda ->
  let sd := eff_domain (length X) sda in
  let basis := rows_of is_source sd X ++ rows_of is_target sd X in
  eig (map (fun x => map (kern x) basis) basis) = Ok V ->
  kernel_fit_transform Row kern eqb eig X sda = Ok (map (kernel_image kern basis V) basis) /\
  (sources_first sd -> kernel_fit_transform Row kern eqb eig X sda = Ok (map (kernel_image kern basis V) X)).
Proof.
  intros Row kern eqb eig X sda V He Hk U sd basis HV.
  assert (HL : length sd = length X) by apply U.
  assert (E : kernel_fit_transform Row kern eqb eig X sda = Ok (map (kernel_image kern basis V) basis)).
  { unfold kernel_fit_transform. rewrite (check_usable _ _ _ U). cbn [bind]. fold sd.
    rewrite split_two by (auto; eapply usable_nonempty; eauto). cbn [bind].
    rewrite block_kernel_eq by auto. fold basis. rewrite HV. cbn [bind].
    apply kernel_transform_train; auto. intros a. now apply He. }
  split; [exact E|]. intros SF. rewrite E. do 2 f_equal. unfold basis. now apply sources_first_rows.
Qed.

(** One target sample 2, then one source sample 1, linear kernel: the leading direction of TCA is (1, 2)/sqrt 5. The first
    row of fit_transform, which should be the image of sample 2, is the image of sample 1. *)
Definition zrows_eqb (a b : list Z) : bool := if list_eq_dec Z.eq_dec a b then true else false.
Theorem C41_interleaved_refuted : exists (eig : list (list R) -> res (list (list R))) V out,
  let kern := (fun x y => IZR (x * y))%Z in
  eig [[1; 2]; [2; 4]]%R = Ok V /\
  kernel_fit_transform Z kern zrows_eqb eig [2; 1]%Z (SDArr [-1; 1]%Z) = Ok out /\
  nth 0 out [] = kernel_image kern [1; 2]%Z V 1%Z /\ nth 0 out [] <> kernel_image kern [1; 2]%Z V 2%Z.
Proof.
  exists (fun _ => Ok [[1 / sqrt 5; 2 / sqrt 5]]%R), [[1 / sqrt 5; 2 / sqrt 5]]%R. eexists. cbv zeta.
  split; [reflexivity|].
  destruct (C41_kernel_block_order_partial Z (fun x y => IZR (x * y))%Z zrows_eqb (fun _ => Ok [[1 / sqrt 5; 2 / sqrt 5]]%R)
    [2; 1]%Z (SDArr [-1; 1]%Z) [[1 / sqrt 5; 2 / sqrt 5]]%R) as [E _]; auto.
  - intros a b. unfold zrows_eqb. destruct (list_eq_dec Z.eq_dec a b); split; congruence.
  - intros x y. now rewrite Z.mul_comm.
  - repeat split; simpl; auto; try lia; try discriminate.
  - split; [exact E|]. split; [reflexivity|].
    change (rows_of is_source (eff_domain (length [2; 1]%Z) (SDArr [-1; 1]%Z)) [2; 1]%Z) with [1]%Z.
    change (rows_of is_target (eff_domain (length [2; 1]%Z) (SDArr [-1; 1]%Z)) [2; 1]%Z) with [2]%Z.
    unfold kernel_image, dot. cbn [app map nth map2 vsum]. intros Q. injection Q as Q. simpl in Q.
    assert (0 < sqrt 5)%R by (apply sqrt_lt_R0; lra).
    assert (K : (5 / sqrt 5 = 10 / sqrt 5)%R).
    { transitivity (1 * (1 / sqrt 5) + (2 * (2 / sqrt 5) + 0))%R; [field; lra|]. rewrite Q. field. lra. }
    apply (Rmult_eq_compat_r (sqrt 5)) in K. unfold Rdiv in K. rewrite !Rmult_assoc, !Rinv_l in K by lra. lra.
Qed.

Example C41_ex : sa_transform true tr_ex tr_ex tr_ex x_ex (SDArr [-1; 2; -3; 1]%Z) =
  Ok (mkArr DFloat [2] [[VNum 2; VNum 4]; [VNum 12; VNum 16]; [VNum 10; VNum 12]; [VNum 28; VNum 32]]).
Proof. vm_compute; reflexivity. Qed.
Example C41_tsl_ex : tsl_transform true tr_ex x_ex (SDArr [-1; 2; -3; 1]%Z) =
  Ok (mkArr DFloat [2] [[VNum 2; VNum 4]; [VNum 6; VNum 8]; [VNum 10; VNum 12]; [VNum 14; VNum 16]]).
Proof. vm_compute; reflexivity. Qed.
Example C41_new_ex : kernel_transform Z (fun x y => IZR (x * y)) zrows_eqb true [1]%Z [2]%Z [[1; 1]]%R [3; 4]%Z (SDArr [-1; 1]%Z) =
  Ok [[IZR 9]; [IZR 12]].
Proof.
  rewrite (C41_kernel_new_data Z (fun x y => IZR (x * y)) zrows_eqb [[1; 1]]%R [1]%Z [2]%Z [3; 4]%Z (SDArr [-1; 1]%Z) true).
  - unfold kernel_image, dot. simpl. repeat f_equal; lra.
  - intros a b. unfold zrows_eqb. destruct (list_eq_dec Z.eq_dec a b); split; congruence.
  - repeat split; simpl; auto; try lia; try discriminate.
  - left. discriminate.
Qed.
Example C41_first_ex : sources_first [1; 2; -1; -3]%Z.
Proof. exists [1; 2]%Z, [-1; -3]%Z. repeat split; repeat constructor. Qed.

(** * C42: TJM stops early only on a small relative change *)
(** For every positive tolerance exactly one iteration is run. *)
Theorem C42_one_iteration : forall Am eig norms objective mask tol k (a : Am), (0 < tol)%R ->
  eig (repeat 1%R (length mask)) = Ok a -> length (norms a) = length mask ->
  tjm_fit Am eig norms objective mask tol (S k) = Ok (a, [objective a]).
Proof. intros. now apply tjm_first. Qed.

(** Ten iterations allowed, tolerance 1/100; the second objective value would be half the first, and the loop stops after the
    first iteration. *)
Theorem C42_stops_early_refuted : exists (eig : list R -> res R) (objective : R -> R) out,
  tjm_fit R eig (fun a => [a; a]) objective [true; false] (1 / 100) 10 = Ok out /\ length (snd out) = 1 /\
  (exists g a, tjm_g R (fun a => [a; a]) [true; false] (fst out) = Ok g /\ eig g = Ok a /\
     ~ (rel_change (objective (fst out)) (objective a) < 1 / 100)%R).
Proof.
  exists (fun g => Ok (if Reqb (nth 0 g 0%R) 1 then 1 else 2)%R), (fun a => (2 / a)%R), (1%R, [2 / 1]%R).
  split; [|split; [reflexivity|]].
  - apply tjm_first; [lra| |reflexivity]. cbn [repeat length nth]. unfold Reqb. destruct (Req_EM_T 1 1); [reflexivity|lra].
  - cbn [fst]. unfold tjm_g. eexists. exists 2%R. split; [rewrite np_setmask_scalar_ok by reflexivity; reflexivity|].
    cbn [map combine fst snd negb nth]. split.
    + assert (Reqb 1 0 = false) as -> by (apply Reqb_false; lra). cbn iota.
      assert (Reqb (1 / (2 * 1 + EPS_eigval)) 1 = false) as ->; [|reflexivity].
      apply Reqb_false. unfold EPS_eigval. intros Q.
      assert (1 < (2 * 1 + / 10000000000))%R by (assert (0 < / 10000000000)%R by (apply Rinv_0_lt_compat; lra); lra).
      apply (Rmult_eq_compat_r (2 * 1 + / 10000000000)) in Q. unfold Rdiv in Q. rewrite Rmult_assoc, Rinv_l in Q by lra. lra.
    + unfold rel_change. replace (2 / 1 - 2 / 2)%R with 1%R by lra. replace (2 / 1)%R with 2%R by lra.
      rewrite Rabs_R1, (Rabs_right 2) by lra. lra.
Qed.

(** What holds: from the second iteration on (a positive previous objective), an early stop implies a small relative change;
    and with a negative tolerance the whole budget is used. *)
Theorem C42_later_stops_partial : forall Am eig norms objective mask tol, (forall a : Am, 0 < objective a)%R ->
  forall k last g A r, (0 < last)%R -> tjm_loop Am eig norms objective mask tol k last g A = Ok r ->
  length (snd r) <= k /\
  (length (snd r) < k -> exists pre x y, last :: snd r = pre ++ [x; y] /\ (rel_change x y < tol)%R).
Proof. intros Am eig norms objective mask tol Hp k last g A r. now apply tjm_loop_stop. Qed.

Theorem C42_negative_tolerance : forall Am eig norms objective mask tol, (forall a : Am, 0 < objective a)%R -> (tol < 0)%R ->
  forall k r, tjm_fit Am eig norms objective mask tol k = Ok r -> length (snd r) = k.
Proof.
  intros Am eig norms objective mask tol Hp Ht k r E. unfold tjm_fit in E.
  eapply tjm_loop_all; [exact Hp|exact Ht| |exact E]. lra.
Qed.

(** No iteration allowed: the projection is never assigned. *)
Theorem C42_no_iteration : forall Am eig norms objective mask tol,
  tjm_fit Am eig norms objective mask tol 0 = Err UnboundLocalError.
Proof. reflexivity. Qed.

Example C42_ex : tjm_fit nat (fun _ => Ok 7) (fun _ => [1; 2; 0]%R) (fun _ => 5%R) [true; false; true] (1 / 1000) 50 = Ok (7, [5%R]).
Proof. apply C42_one_iteration; auto. lra. Qed.
Example C42_later_ex : tjm_loop nat (fun _ => Ok 7) (fun _ => [1; 2; 0]%R) (fun _ => 5%R) [true; false; true] (1 / 1000) 50 5%R [] None =
  Ok (7, [5%R]).
Proof.
  cbn [tjm_loop bind]. unfold tjm_g. rewrite np_setmask_scalar_ok by reflexivity. cbn [bind].
  assert (Rltb (Rabs (5 - 5) / 5) (1 / 1000) = true) as ->; [|now rewrite orb_true_r].
  apply Rltb_iff. replace (5 - 5)%R with 0%R by ring. rewrite Rabs_R0. lra.
Qed.

(** * C43: MultiLinearMonge applies to each row the map of its own domain *)
Theorem C43_transform : forall mappings X sda,
  usable true (a_len X) sda -> a_dt X = DFloat ->
  let sd := eff_domain (a_len X) sda in
  (forall d, In d sd -> exists f, dict_get Z.eqb d mappings = Some f) ->
  exists m, mlm_transform mappings X sda = Ok m /\ a_len m = a_len X /\
    forall i d x f, nth_error sd i = Some d -> nth_error (a_rows X) i = Some x -> dict_get Z.eqb d mappings = Some f ->
      nth_error (a_rows m) i = Some (f x).
Proof.
  intros mappings X sda U Hdt sd HM. unfold mlm_transform. rewrite (check_usable _ _ _ U). cbn [bind]. fold sd.
  assert (HL : length sd = a_len X) by apply U.
  rewrite extract_domains_ok by (eapply usable_nonempty; eauto). cbn [bind].
  destruct (mlm_loop_ok mappings (a_dt X) sd (a_rows X) HL (unique sd) (a_rows X)) as [out [E [L G]]]; auto.
  { intros d Hd. apply HM. now apply (proj1 (unique_In _ _)) in Hd. }
  rewrite E. cbn [bind]. eexists. split; [reflexivity|]. split; [exact L|]. cbn [a_rows].
  intros i d x f Hd Hx Hf. rewrite (G i d x Hd Hx).
  assert (existsb (Z.eqb d) (unique sd) = true) as ->.
  { apply existsb_exists. exists d. split; [|apply Z.eqb_refl]. apply unique_In. now apply nth_error_In with i. }
  rewrite Hf, Hdt. cbn [option_map]. f_equal. apply map_id.
Qed.

Theorem C43_unseen_domain : forall mappings X sda,
  usable true (a_len X) sda -> (exists d, In d (eff_domain (a_len X) sda) /\ dict_get Z.eqb d mappings = None) ->
  mlm_transform mappings X sda = Err KeyError.
Proof.
  intros mappings X sda U [d [Hd HN]]. unfold mlm_transform. rewrite (check_usable _ _ _ U). cbn [bind].
  assert (HL : length (eff_domain (a_len X) sda) = a_len X) by apply U.
  rewrite extract_domains_ok by (eapply usable_nonempty; eauto). cbn [bind].
  rewrite mlm_loop_key; auto. exists d. split; auto. now apply unique_In.
Qed.

(** fit: the map of a domain is built from the training rows of that domain and the barycentre of the source domains. *)
Theorem C43_fit : forall P B (cov_mean : list (list val) -> P) (bary : list P -> B) bw X y sda,
  usable true (a_len X) sda -> (forall l, y = Some l -> length l = a_len X) ->
  let sd := eff_domain (a_len X) sda in
  some_label is_source sd ->
  exists mappings, mlm_fit cov_mean bary bw X y sda = Ok mappings /\
    forall d, dict_get Z.eqb d mappings =
      if existsb (Z.eqb d) sd
      then Some (bw (cov_mean (rows_of (Z.eqb d) sd (a_rows X)))
                    (bary (map (fun s => cov_mean (rows_of (Z.eqb s) sd (a_rows X))) (filter is_source (unique sd)))))
      else None.
Proof.
  intros P B cov_mean bary bw X y sda U Hy sd [a [Ha Hp]].
  assert (HL : length sd = a_len X) by apply U.
  unfold mlm_fit. rewrite (check_usable _ _ _ U). cbn [bind]. fold sd.
  rewrite per_domain_ok.
  2: easy. 2: eapply usable_nonempty; eauto.
  2:{ intros xs [E|[E|[E|[]]]]; [injection E as <-; auto| |discriminate]. rewrite HL. auto. }
  cbn [bind fst snd]. rewrite !map_map. cbn [fst snd map domain_rows].
  rewrite map_length. destruct (Nat.eqb_spec (length (filter is_source (unique sd))) 0) as [Z|Z].
  { exfalso. apply length_zero_iff_nil in Z. assert (In a (filter is_source (unique sd))) as Q.
    { apply filter_In. split; auto. now apply unique_In. } rewrite Z in Q. easy. }
  eexists. split; [reflexivity|]. intros d.
  set (b := bary _).
  rewrite (dict_get_update (fun u => bw (cov_mean (rows_of (Z.eqb u) sd (a_rows X))) b)).
  rewrite (dict_get_map_keys (fun u => bw (cov_mean (rows_of (Z.eqb u) sd (a_rows X))) b)).
  destruct (existsb (Z.eqb d) sd) eqn:E.
  - apply existsb_exists in E as [x [Hx E]]. apply Z.eqb_eq in E as <-.
    destruct (existsb (Z.eqb d) (filter is_target (unique sd))) eqn:E1; auto.
    destruct (existsb (Z.eqb d) (filter is_source (unique sd))) eqn:E2; auto.
    exfalso. destruct (is_source d) eqn:Q.
    + assert (K : existsb (Z.eqb d) (filter is_source (unique sd)) = true) by (apply existsb_filter_unique; auto). congruence.
    + assert (K : existsb (Z.eqb d) (filter is_target (unique sd)) = true).
      { apply existsb_filter_unique. split; auto. rewrite is_target_negb, Q. reflexivity. } congruence.
  - assert (N : ~ In d sd).
    { intros Q. assert (K : existsb (Z.eqb d) sd = true) by (apply existsb_exists; exists d; split; auto; apply Z.eqb_refl). congruence. }
    destruct (existsb (Z.eqb d) (filter is_target (unique sd))) eqn:E1; [apply existsb_filter_unique in E1; tauto|].
    destruct (existsb (Z.eqb d) (filter is_source (unique sd))) eqn:E2; [apply existsb_filter_unique in E2; tauto|]. reflexivity.
Qed.

(** Integer X: the mapped values are truncated to integers. *)
Definition halve (v : val) : val := match v with VNum q => VNum (Qred (q / 2)) | _ => v end.
Theorem C43_integer_input_refuted : exists mappings X sda f m,
  usable true (a_len X) sda /\ wf_arr X /\ eff_domain (a_len X) sda = [1]%Z /\ a_rows X = [[VNum 3]] /\
  dict_get Z.eqb 1%Z mappings = Some f /\ mlm_transform mappings X sda = Ok m /\
  f [VNum 3] = [VNum (3 # 2)] /\ a_rows m = [[VNum 1]].
Proof.
  exists [(1%Z, map halve)], (mkArr DInt [1] [[VNum 3]]), (SDArr [1]%Z), (map halve). eexists.
  split; [repeat split; simpl; auto; try lia; try discriminate|].
  split; [intros _; repeat constructor; now exists 3%Z|].
  split; [reflexivity|]. split; [reflexivity|]. split; [reflexivity|]. split; [reflexivity|]. split; reflexivity.
Qed.

Example C43_ex : mlm_transform [(1%Z, map dbl); ((-2)%Z, map halve)]
  (mkArr DFloat [1] [[VNum 3]; [VNum 5]; [VNum 7]]) (SDArr [-2; 1; -2]%Z) =
  Ok (mkArr DFloat [1] [[VNum (3 # 2)]; [VNum 10]; [VNum (7 # 2)]]).
Proof. reflexivity. Qed.
Example C43_unseen_ex : mlm_transform [(1%Z, map dbl)] (mkArr DFloat [1] [[VNum 3]; [VNum 5]]) (SDArr [1; -2]%Z) = Err KeyError.
Proof. reflexivity. Qed.
Example C43_fit_ex : exists maps, mlm_fit (fun rows => length rows) (fun ps => fold_right plus 0 ps)
  (fun p b x => VNum (inject_Z (Z.of_nat (10 * p + b))) :: x) (mkArr DFloat [1] [[VNum 3]; [VNum 5]; [VNum 7]]) None (SDArr [-2; 1; -2]%Z) = Ok maps /\
  option_map (fun f => f [VNum 0]) (dict_get Z.eqb (-2)%Z maps) = Some [VNum 21; VNum 0].
Proof. eexists. split; reflexivity. Qed.

(** * C84: TJM sparsity weights follow the samples *)
Definition tjm_weight (a : R) : R := if Reqb a 0 then 0%R else (1 / (2 * a + / 10000000000))%R.
(** [norms A] lists the row norms in the order of the kernel matrix: the sources, then the targets. Sources first: each source
    row gets its own weight, each target row 1, and the regulariser sums source norms and squared target norms. *)
Theorem C84_sources_first_partial : forall Am norms (A : Am) sd ns nt,
  sources_first sd -> length ns = how_many is_source sd -> length nt = how_many is_target sd -> norms A = ns ++ nt ->
  tjm_g Am norms (map is_source sd) A = Ok (map tjm_weight ns ++ repeat 1%R (length nt)) /\
  tjm_reg Am norms (map is_source sd) A = Ok (vsum ns + vsum (map (fun x => x * x) nt))%R.
Proof.
  intros Am norms A sd ns nt [a [b [-> [Ha Hb]]]] Ls Lt E.
  rewrite how_many_app in Ls, Lt.
  assert (Q1 : how_many is_source a = length a).
  { apply how_many_all. now apply Forall_forall. }
  assert (Q2 : how_many is_target a = 0).
  { apply how_many_0. intros x Hx. rewrite Forall_forall in Ha. rewrite is_target_negb, Ha; auto. }
  assert (Q3 : how_many is_target b = length b).
  { apply how_many_all. now apply Forall_forall. }
  assert (Q4 : how_many is_source b = 0).
  { apply how_many_0. intros x Hx. rewrite Forall_forall in Hb. specialize (Hb x Hx). rewrite is_target_negb in Hb. now destruct (is_source x). }
  rewrite Q1, Q4, Nat.add_0_r in Ls. rewrite Q2, Q3 in Lt. cbn [Nat.add] in Lt.
  assert (M1 : map is_source (a ++ b) = repeat true (length ns) ++ repeat false (length nt)).
  { rewrite map_app, Ls, Lt. f_equal.
    - clear -Ha. induction Ha as [|x l H]; simpl; auto. now rewrite H, IHHa.
    - clear -Hb. induction Hb as [|x l H]; simpl; auto. rewrite is_target_negb in H. destruct (is_source x); [discriminate|]. now rewrite IHHb. }
  assert (M2 : map negb (map is_source (a ++ b)) = repeat false (length ns) ++ repeat true (length nt)).
  { rewrite M1, map_app, !map_repeat_eq. reflexivity. }
  unfold tjm_g, tjm_reg. rewrite M2, M1, E. split.
  - rewrite np_setmask_scalar_ok by (rewrite map_length, !app_length, !repeat_length; reflexivity).
    f_equal. rewrite map_app. clear. induction ns as [|x ns IH]; cbn [map app repeat length combine].
    + induction nt as [|x nt IH]; cbn [map app repeat length combine fst]; auto. f_equal. exact IH.
    + cbn [fst snd]. f_equal. exact IH.
  - assert (S1 : forall (u v : list R), select (repeat true (length u) ++ repeat false (length v)) (u ++ v) = u).
    { clear. induction u as [|x u IH]; intros v; simpl; [|now rewrite IH]. induction v; simpl; auto. }
    assert (S2 : forall (u v : list R), select (repeat false (length u) ++ repeat true (length v)) (u ++ v) = v).
    { clear. induction u as [|x u IH]; intros v; simpl; [|now rewrite IH]. induction v; simpl; auto. now rewrite IHv. }
    rewrite !np_select_ok by (rewrite !app_length, !repeat_length; reflexivity). cbn [bind].
    now rewrite S1, S2.
Qed.

(** Target first: the source row (norm 2) gets weight 1, the target row (norm 3) gets the sparsity weight of a source, and the
    regulariser squares the source norm. *)
Theorem C84_interleaved_refuted : exists (norms : unit -> list R) sd ns nt,
  length ns = how_many is_source sd /\ length nt = how_many is_target sd /\ norms tt = ns ++ nt /\
  tjm_g unit norms (map is_source sd) tt <> Ok (map tjm_weight ns ++ repeat 1%R (length nt)) /\
  tjm_reg unit norms (map is_source sd) tt <> Ok (vsum ns + vsum (map (fun x => x * x) nt))%R.
Proof.
  exists (fun _ => [2; 3]%R), [-1; 1]%Z, [2]%R, [3]%R. split; [reflexivity|]. split; [reflexivity|]. split; [reflexivity|]. split.
  - unfold tjm_g. rewrite np_setmask_scalar_ok by reflexivity. cbn. intros Q. injection Q as Q _. unfold tjm_weight in Q.
    assert (Reqb 2 0 = false) as Z by (apply Reqb_false; lra). rewrite Z in Q.
    assert (0 < / 10000000000)%R by (apply Rinv_0_lt_compat; lra).
    apply (Rmult_eq_compat_r (2 * 2 + / 10000000000)) in Q. unfold Rdiv in Q. rewrite Rmult_assoc, Rinv_l in Q by lra. lra.
  - unfold tjm_reg, np_select. cbn. intros Q. injection Q as Q. lra.
Qed.

Example C84_ex : tjm_g unit (fun _ => [0; 3]%R) (map is_source [1; -1]%Z) tt = Ok [0; 1]%R.
Proof.
  destruct (C84_sources_first_partial unit (fun _ => [0; 3]%R) tt [1; -1]%Z [0]%R [3]%R) as [E _]; auto.
  - exists [1]%Z, [-1]%Z. repeat split; repeat constructor.
  - rewrite E. cbn. unfold tjm_weight. assert (Reqb 0 0 = true) as -> by now apply Reqb_iff. reflexivity.
Qed.

(** * C85: the MMD matrix measures the squared distance of the means, the centring matrix the scatter *)
Theorem C85_mmd_matrix : forall fs ft, fs <> [] -> ft <> [] ->
  quad (mmd_matrix (length fs) (length ft)) (fs ++ ft) = ((vsum fs / INR (length fs) - vsum ft / INR (length ft)) ^ 2)%R.
Proof. intros. rewrite mmd_quad by auto. unfold mean. ring. Qed.

Theorem C85_centring_matrix : forall f, f <> [] ->
  quad (centring_matrix (length f)) f = vsum (map (fun x => (x - vsum f / INR (length f)) ^ 2)%R f).
Proof. intros. rewrite centring_quad by auto. unfold mean. f_equal. apply map_ext. intros; ring. Qed.

Example C85_ex : quad (mmd_matrix 2 1) [1; 3; 5]%R = 9%R.
Proof. change (quad (mmd_matrix (length [1; 3]%R) (length [5]%R)) ([1; 3] ++ [5])%R%list = 9%R). rewrite C85_mmd_matrix by easy. simpl. field. Qed.
Example C85_centre_ex : quad (centring_matrix 2) [1; 3]%R = 2%R.
Proof. change (quad (centring_matrix (length [1; 3]%R)) [1; 3]%R = 2%R). rewrite C85_centring_matrix by easy. simpl. field. Qed.

(** * C86: CORAL *)
(** Row order of transform: source rows are centred, whitened and coloured, target rows centred. *)
Theorem C86_row_order : forall allow assume_centered cs ct wh co fc gc fw fcol X sda tl,
  usable allow (a_len X) sda -> 0 < prod_tail tl ->
  row_by_row cs fc tl -> row_by_row ct gc tl -> row_by_row wh fw tl -> row_by_row co fcol tl ->
  assume_centered = false ->
  coral_transform allow assume_centered cs ct wh co X sda =
  Ok (mkArr DFloat tl (by_side (fun x => fcol (fw (fc x))) gc (eff_domain (a_len X) sda) (a_rows X))).
Proof.
  intros allow ac cs ct wh co fc gc fw fcol X sda tl U Htl H1 H2 H3 H4 ->. unfold coral_transform.
  apply split_map_merge_rows; auto. intros a _. rewrite H1. cbn [bind]. rewrite H3. cbn [bind]. rewrite H4. cbn [a_rows]. now rewrite !map_map.
Qed.

(** assume_centered=True: target rows are returned unchanged. *)
Theorem C86_assume_centered : forall allow cs ct wh co fw fcol X sda,
  usable allow (a_len X) sda -> table X -> row_by_row wh fw (a_tail X) -> row_by_row co fcol (a_tail X) ->
  let sd := eff_domain (a_len X) sda in
  exists m, coral_transform allow true cs ct wh co X sda = Ok m /\ a_rows m = by_side (fun x => fcol (fw x)) (fun x => x) sd (a_rows X).
Proof.
  intros allow cs ct wh co fw fcol X sda U Ht H3 H4 sd.
  set (tr := fun s => w <- wh s ;; co w).
  assert (TR : forall a, tr a = Ok (mkArr DFloat (a_tail X) (map (fun x => fcol (fw x)) (a_rows a)))).
  { intros a. unfold tr. rewrite H3. cbn [bind]. rewrite H4. cbn [a_rows]. now rewrite map_map. }
  assert (HL : length sd = a_len X) by apply U.
  destruct (C40_ot_transform allow tr X sda U Ht) as [m [E [L [M1 [M2 M3]]]]].
  { intros _. rewrite TR. eexists. split; [reflexivity|]. repeat split. unfold a_len. cbn [a_rows]. apply map_length. }
  exists m. split.
  - rewrite <- E. unfold coral_transform, ot_transform. reflexivity.
  - fold sd in M1, M2, M3. apply merged_by_side; [exact HL|]. split; [|split].
    + change (length (a_rows m)) with (a_len m). rewrite L. auto.
    + destruct (how_many is_source sd) eqn:Z.
      * assert (K : forall l : list (list val), length sd = length l -> rows_of is_source sd l = []).
        { intros l Hl. apply length_zero_iff_nil. rewrite rows_of_length; auto. }
        rewrite !K; auto. change (length (a_rows m)) with (a_len m). congruence.
      * rewrite (M2) with (s' := mkArr DFloat (a_tail X) (map (fun x => fcol (fw x)) (rows_of is_source sd (a_rows X)))).
        -- reflexivity.
        -- unfold how_many in Z. destruct (filter is_source sd) as [|a l] eqn:F; [discriminate|].
           assert (In a (filter is_source sd)) as Q by (rewrite F; now left). apply filter_In in Q. exists a. exact Q.
        -- apply TR.
    + rewrite map_id. exact M1.
Qed.

(** Without shrinkage the adapted training sources have mean zero and exactly the covariance of the training targets. *)
Theorem C86_covariance_match : forall eigh n ms mt Xs Xt,
  eigensolver n eigh -> 0 < ms -> 0 < mt -> pos_def n (cov_of ms Xs) ->
  let Zs := coral_map_source eigh false n ms mt Xs Xt Xs in
  let Zt := coral_map_target false mt Xt Xt in
  forall j l, j < n -> l < n ->
    mean_of ms Zs j = 0%R /\ mean_of mt Zt j = 0%R /\
    cov_of ms Zs j l = cov_of mt Xt j l /\ cov_of mt Zt j l = cov_of mt Xt j l.
Proof.
  intros eigh n ms mt Xs Xt HE Hs Ht HP Zs Zt j l Hj Hl.
  set (Y := fun i k => (Xs i k - col_mean ms Xs k)%R).
  set (Cs := emp_cov false ms Xs). set (Ct := emp_cov false mt Xt).
  set (W := mmul n (invsqrtm eigh n Cs) (sqrtm eigh n Ct)).
  assert (ZW : forall i k, Zs i k = mmul n Y W i k) by (intros; apply mmul_assoc).
  assert (MW : forall k, mean_of ms Zs k = 0%R).
  { intros k. transitivity (mean_of ms (mmul n Y W) k).
    - unfold mean_of. f_equal. rewrite !sigma_msum. apply msum_ext. intros; apply ZW.
    - apply mmul_mean. intros a _. now apply centred_sum. }
  assert (MT : forall k, mean_of mt Zt k = 0%R).
  { intros k. unfold mean_of. rewrite sigma_msum.
    transitivity (0 / INR mt)%R; [|unfold Rdiv; ring]. f_equal. now apply (centred_sum mt Xt k). }
  split; [apply MW|]. split; [apply MT|]. split.
  - rewrite cov_centred by apply MW.
    transitivity (msum ms (fun i => mmul n Y W i j * mmul n Y W i l) / INR ms)%R.
    { f_equal. apply msum_ext. intros; now rewrite !ZW. }
    rewrite moment_mul.
    rewrite (whiten_colour eigh n Cs Ct HE) ; auto.
    + apply emp_cov_sym.
    + apply emp_cov_sym.
    + intros v. now apply emp_cov_nonneg.
  - rewrite cov_centred by apply MT. reflexivity.
Qed.

(** assume_centered=True: the second moments are matched instead. *)
Theorem C86_moment_match : forall eigh n ms mt Xs Xt,
  eigensolver n eigh -> 0 < ms -> 0 < mt -> pos_def n (moment_of ms Xs) ->
  forall j l, j < n -> l < n ->
    moment_of ms (coral_map_source eigh true n ms mt Xs Xt Xs) j l = moment_of mt Xt j l.
Proof.
  intros eigh n ms mt Xs Xt HE Hs Ht HP j l Hj Hl.
  assert (EM : forall m X a b, emp_cov true m X a b = moment_of m X a b).
  { intros. unfold emp_cov, moment_of. f_equal. apply msum_ext. intros; ring. }
  set (Cs := emp_cov true ms Xs). set (Ct := emp_cov true mt Xt).
  set (W := mmul n (invsqrtm eigh n Cs) (sqrtm eigh n Ct)).
  unfold moment_of at 1. change (sigma ms) with (msum ms).
  transitivity (msum ms (fun i => mmul n Xs W i j * mmul n Xs W i l) / INR ms)%R.
  { f_equal. apply msum_ext. intros i _. unfold W. rewrite <- !mmul_assoc. reflexivity. }
  rewrite moment_mul. rewrite <- (EM mt Xt j l). change (emp_cov true mt Xt j l) with (Ct j l).
  rewrite <- (whiten_colour eigh n Cs Ct HE) with (i := j) (j := l); auto.
  - fold W. apply mmul_ext; auto. intros a Ha. apply mmul_ext; auto. intros b Hb. unfold Cs. rewrite EM. reflexivity.
  - apply emp_cov_sym.
  - intros v Hv. unfold Cs. erewrite sigma_ext2; [apply (HP v Hv)|]. intros; now rewrite EM.
  - apply emp_cov_sym.
  - intros v. now apply emp_cov_nonneg.
Qed.

(** The square roots computed by CORAL. *)
Theorem C86_square_roots : forall eigh n C, eigensolver n eigh -> (forall i j, C i j = C j i) -> pos_def n C ->
  forall i j, i < n -> j < n ->
    sigma n (fun k => sqrtm eigh n C k i * sqrtm eigh n C k j)%R = C i j /\
    sigma n (fun b => sigma n (fun a => invsqrtm eigh n C a i * C a b)%R * invsqrtm eigh n C b j)%R = (if i =? j then 1 else 0)%R.
Proof.
  intros eigh n C HE S P i j Hi Hj. split.
  - rewrite <- (sqrtm_spec eigh n C HE S (fun v => match classic_zero n v with
      | or_introl Z => Req_le_sym _ _ (Z C) | or_intror Z => Rlt_le _ _ (P v Z) end) i j Hi Hj). reflexivity.
  - rewrite <- (invsqrtm_spec eigh n C HE S P) by auto. reflexivity.
Qed.

(** Two sources -1, 1 and two targets 0, 4 on one feature: variances 1 and 4. *)
Definition eigh1 (C : mat) : (nat -> R) * mat := ((fun _ => C 0 0), (fun _ _ => 1%R)).
Example C86_ex : eigensolver 1 eigh1 /\
  (let Xs := fun i _ => if i =? 0 then (-1)%R else 1%R in
   let Xt := fun i _ => if i =? 0 then 0%R else 4%R in
   pos_def 1 (cov_of 2 Xs) /\ cov_of 2 Xt 0 0 = 4%R /\ cov_of 2 (coral_map_source eigh1 false 1 2 2 Xs Xt Xs) 0 0 = 4%R).
Proof.
  assert (HE : eigensolver 1 eigh1).
  { intros C S i j Hi Hj. assert (i = 0) as -> by lia. assert (j = 0) as -> by lia. simpl. repeat split; ring. }
  split; [exact HE|]. cbv zeta.
  assert (HP : pos_def 1 (cov_of 2 (fun i _ => if i =? 0 then (-1)%R else 1%R))).
  { intros v [i [Hi Hv]]. assert (i = 0) as -> by lia. unfold cov_of, mean_of. simpl. 
    apply Rlt_le_trans with (v 0%nat * v 0%nat)%R; [nra|]. right. field. }
  split; [exact HP|].
  assert (E : cov_of 2 (fun i _ : nat => if i =? 0 then 0%R else 4%R) 0 0 = 4%R) by (unfold cov_of, mean_of; simpl; field).
  split; [exact E|].
  pose proof (C86_covariance_match eigh1 1 2 2 (fun i _ => if i =? 0 then (-1)%R else 1%R) (fun i _ => if i =? 0 then 0%R else 4%R)
    HE ltac:(lia) ltac:(lia) HP 0 0 ltac:(lia) ltac:(lia)) as K. cbv zeta in K. destruct K as [_ [_ [K _]]]. rewrite K. exact E.
Qed.
Example C86_rows_ex : coral_transform true false tr_ex tr_ex tr_ex tr_ex x_ex (SDArr [-1; 2; -3; 1]%Z) =
  Ok (mkArr DFloat [2] [[VNum 2; VNum 4]; [VNum 24; VNum 32]; [VNum 10; VNum 12]; [VNum 56; VNum 64]]).
Proof. vm_compute; reflexivity. Qed.

(** * C87: MMDLSConS *)
(** transform on the training sources: the k-th source row with its own k-th coefficients; targets unchanged. *)
Theorem C87_training_sources : forall Coef app czero eqb nearest veqb (st : ls_state Coef) X y sda,
  usable true (a_len X) sda -> table X -> (forall a b, eqb a b = true <-> a = b) ->
  let sd := eff_domain (a_len X) sda in
  rows_of is_source sd (a_rows X) = ls_X Coef st -> length (ls_W Coef st) = length (ls_X Coef st) ->
  (forall l, y = Some l -> length l = a_len X) ->
  exists m, ls_transform Coef app czero eqb nearest veqb true st X y sda = Ok m /\
    merged sd (map2 app (ls_W Coef st) (rows_of is_source sd (a_rows X))) (rows_of is_target sd (a_rows X)) (a_rows m).
Proof.
  intros Coef app czero eqb nearest veqb st X y sda U Ht He sd Hs HW Hy.
  apply (ls_merge Coef app czero eqb nearest veqb st X y sda (ls_W Coef st) U Ht Hy). fold sd. intros _.
  unfold ls_coefs. rewrite (proj2 (He _ _)) by auto. split; [reflexivity|]. now rewrite Hs.
Qed.

(** New sources with labels of known classes: each source row with the coefficients of its own class. *)
Theorem C87_known_classes : forall Coef app czero eqb nearest veqb (st : ls_state Coef) X y sda classes g,
  usable true (a_len X) sda -> table X -> (forall a b, eqb a b = true <-> a = b) -> (forall a b, veqb a b = true <-> a = b) ->
  let sd := eff_domain (a_len X) sda in
  rows_of is_source sd (a_rows X) <> ls_X Coef st -> length y = a_len X ->
  ls_classes Coef st = Some classes -> ls_G Coef st = map g classes ->
  (forall c, In c (rows_of is_source sd y) -> In c classes) ->
  exists m, ls_transform Coef app czero eqb nearest veqb true st X (Some y) sda = Ok m /\
    a_rows m = by_side (fun xy => app (g (snd xy)) (fst xy)) fst sd (combine (a_rows X) y).
Proof.
  intros Coef app czero eqb nearest veqb st X y sda classes g U Ht He Hv sd Hs HY HC HG Hin.
  assert (HL : length sd = a_len X) by apply U.
  destruct (ls_merge Coef app czero eqb nearest veqb st X (Some y) sda (map g (rows_of is_source sd y)) U Ht) as [m [E M]].
  - intros l Q. injection Q as <-. exact HY.
  - fold sd. intros _. unfold ls_coefs.
    destruct (eqb _ _) eqn:Q; [apply He in Q; congruence|]. cbn [option_map]. rewrite HC. split.
    + f_equal. apply map_ext_in. intros c Hc. rewrite HG. now apply class_coef_map; [apply Hv|apply Hin].
    + rewrite map_length, !rows_of_length; auto. now rewrite HY.
  - exists m. split; [exact E|]. fold sd in M.
    replace (map2 app (map g (rows_of is_source sd y)) (rows_of is_source sd (a_rows X)))
      with (map (fun xy => app (g (snd xy)) (fst xy)) (rows_of is_source sd (combine (a_rows X) y))) in M.
    + replace (rows_of is_target sd (a_rows X)) with (map fst (rows_of is_target sd (combine (a_rows X) y))) in M.
      * destruct M as [M1 [M2 M3]]. destruct (rows_of_by_side (fun xy => app (g (snd xy)) (fst xy)) fst sd (combine (a_rows X) y)) as [B1 B2].
        apply (rows_of_unique sd); auto.
        -- apply by_side_length. rewrite combine_length. change (length (a_rows X)) with (a_len X). lia.
        -- now rewrite M2, B1.
        -- now rewrite M3, B2.
      * rewrite <- rows_of_map. f_equal. apply map_fst_combine. exact (eq_sym HY).
    + rewrite rows_of_combine by exact (eq_sym HY).
      assert (Q : length (rows_of is_source sd (a_rows X)) = length (rows_of is_source sd y)) by (rewrite !rows_of_length; auto; now rewrite HY).
      revert Q. generalize (rows_of is_source sd (a_rows X)) as u. generalize (rows_of is_source sd y) as v. clear.
      intros v u. revert v. induction u; intros [|b v] Q; simpl in *; auto; try discriminate. f_equal. apply IHu. lia.
Qed.

(** New sources without labels: each source row with the coefficients of its nearest training source. *)
Theorem C87_nearest : forall Coef app czero eqb nearest veqb (st : ls_state Coef) X sda c0,
  usable true (a_len X) sda -> table X -> (forall a b, eqb a b = true <-> a = b) ->
  let sd := eff_domain (a_len X) sda in
  rows_of is_source sd (a_rows X) <> ls_X Coef st ->
  (forall x, nearest (ls_X Coef st) x < length (ls_W Coef st)) ->
  exists m, ls_transform Coef app czero eqb nearest veqb true st X None sda = Ok m /\
    a_rows m = by_side (fun x => app (nth (nearest (ls_X Coef st) x) (ls_W Coef st) c0) x) (fun x => x) sd (a_rows X).
Proof.
  intros Coef app czero eqb nearest veqb st X sda c0 U Ht He sd Hs Hn.
  assert (HL : length sd = a_len X) by apply U.
  destruct (ls_merge Coef app czero eqb nearest veqb st X None sda
    (map (fun x => nth (nearest (ls_X Coef st) x) (ls_W Coef st) c0) (rows_of is_source sd (a_rows X))) U Ht) as [m [E M]].
  - discriminate.
  - fold sd. intros _. unfold ls_coefs. destruct (eqb _ _) eqn:Q; [apply He in Q; congruence|]. cbn [option_map].
    split; [|now rewrite map_length].
    assert (K : np_take (map (nearest (ls_X Coef st)) (rows_of is_source sd (a_rows X))) (ls_W Coef st) =
      Ok (map (fun x => nth (nearest (ls_X Coef st) x) (ls_W Coef st) c0) (rows_of is_source sd (a_rows X)))).
    { rewrite np_take_ok with (d := c0); [now rewrite map_map|]. apply Forall_forall. intros i Hi. apply in_map_iff in Hi as [x [<- _]]. apply Hn. }
    now destruct (ls_classes Coef st).
  - exists m. split; [exact E|]. fold sd in M. apply merged_by_side; [exact HL|].
    rewrite map_id. replace (map _ (rows_of is_source sd (a_rows X))) with
      (map2 app (map (fun x => nth (nearest (ls_X Coef st) x) (ls_W Coef st) c0) (rows_of is_source sd (a_rows X))) (rows_of is_source sd (a_rows X))); [exact M|].
    generalize (rows_of is_source sd (a_rows X)) as l. clear. induction l; simpl; congruence.
Qed.

(** A label that was not seen in fit is not reported: the row is mapped with zero coefficients. *)
Theorem C87_unseen_class : forall Coef czero veqb classes (G : list Coef) c,
  (forall c', In c' classes -> veqb c c' = false) -> class_coef Coef czero veqb classes G c = czero.
Proof.
  intros Coef czero veqb classes G c H. unfold class_coef.
  assert (find (fun cg : val * Coef => veqb c (fst cg)) (combine classes G) = None) as ->; auto.
  revert G. induction classes as [|a l IH]; intros [|x G]; simpl; auto. rewrite H by now left. apply IH. intros; apply H; now right.
Qed.

(** fit optimises on the source samples and labels and the target samples. *)
Theorem C87_fit : forall Coef optimise X y sda,
  usable true (a_len X) sda -> length y = a_len X ->
  let sd := eff_domain (a_len X) sda in
  ls_fit Coef optimise X y sda =
  match optimise (rows_of is_source sd (a_rows X)) (rows_of is_target sd (a_rows X)) (rows_of is_source sd y) with
  | Ok (w, c, g) => Ok (mkLS Coef (rows_of is_source sd (a_rows X)) w c g)
  | Err e => Err e
  end.
Proof.
  intros Coef optimise X y sda U HY sd. unfold ls_fit. rewrite (check_usable _ _ _ U). cbn [bind]. fold sd.
  assert (HL : length sd = a_len X) by apply U. assert (Hsd : sd <> []) by (eapply usable_nonempty; eauto).
  rewrite split_two by auto. cbn [bind]. rewrite split_two by (auto; congruence). cbn [bind].
  destruct (optimise _ _ _) as [[[w c] g]|e]; reflexivity.
Qed.

Definition st_ex : ls_state (val -> val) :=
  mkLS _ [[VNum 1]; [VNum 9]] [dbl; halve] (Some [VNum 0; VNum 1]) [dbl; halve].
Definition rows_eqb_ex (a b : list (list val)) : bool :=
  if (length a =? length b) then forallb (fun p => match p with ([VNum x], [VNum y]) => Qeq_bool x y | _ => false end) (combine a b) else false.
Definition veqb_ex (a b : val) : bool := match a, b with VNum x, VNum y => Qeq_bool x y | _, _ => false end.
Example C87_ex : ls_transform _ (fun c x => map c x) (fun _ => VNum 0) rows_eqb_ex (fun _ x => match x with [VNum q] => if Qle_bool q 5 then 0 else 1 | _ => 0 end)
   veqb_ex true st_ex (mkArr DFloat [1] [[VNum 8]; [VNum 3]; [VNum 6]]) (Some [VNum 1; VNum (-1); VNum 7]) (SDArr [1; -2; 1]%Z) =
   Ok (mkArr DFloat [1] [[VNum 4]; [VNum 3]; [VNum 0]]) /\
  ls_transform _ (fun c x => map c x) (fun _ => VNum 0) rows_eqb_ex (fun _ x => match x with [VNum q] => if Qle_bool q 5 then 0 else 1 | _ => 0 end)
   veqb_ex true st_ex (mkArr DFloat [1] [[VNum 8]; [VNum 3]; [VNum 4]]) None (SDArr [1; -2; 1]%Z) =
   Ok (mkArr DFloat [1] [[VNum 4]; [VNum 3]; [VNum 8]]).
Proof. split; vm_compute; reflexivity. Qed.
