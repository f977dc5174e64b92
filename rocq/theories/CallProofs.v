(** Lemmas about the callbacks and the spherical k-means. *)
From Coq Require Import String List ZArith Bool Arith Lia Reals Lra.
From Verif Require Import Np NpFacts RVec RVecFacts PDKernel LossModel LossSpec LossProofs CallModel CallSpec.
Import ListNotations.
Local Open Scope nat_scope.

(** ** Memory bank *)
Lemma set_nth_length mem i r : length (set_nth mem i r) = length mem.
Proof. revert i. induction mem as [|x mem IH]; intros [|i]; cbn; auto. Qed.
Lemma set_nth_same mem i r : i < length mem -> nth_error (set_nth mem i r) i = Some r.
Proof. revert i. induction mem as [|x mem IH]; intros [|i] H; cbn in *; auto; try lia. apply IH. lia. Qed.
Lemma set_nth_other mem i j r : i <> j -> nth_error (set_nth mem i r) j = nth_error mem j.
Proof. revert i j. induction mem as [|x mem IH]; intros [|i] [|j] H; cbn; auto; try congruence. Qed.
Lemma scatter_length idx : forall mem rows, length (scatter mem idx rows) = length mem.
Proof. induction idx as [|i idx IH]; intros mem [|r rows]; cbn; auto. rewrite IH. apply set_nth_length. Qed.
Lemma scatter_map (f : nat -> list R) idx : forall mem j, (forall i, In i idx -> i < length mem) ->
  nth_error (scatter mem idx (map f idx)) j = if in_dec Nat.eq_dec j idx then Some (f j) else nth_error mem j.
Proof.
  induction idx as [|i idx IH]; intros mem j H; [reflexivity|]. cbn [map scatter]. rewrite IH by (intros k Hk; rewrite set_nth_length; apply H; cbn; auto).
  destruct (in_dec Nat.eq_dec j idx) as [I|I]; destruct (in_dec Nat.eq_dec j (i :: idx)) as [J|J]; try reflexivity.
  - exfalso. apply J. cbn. auto.
  - destruct J as [<-|J]; [|contradiction]. apply set_nth_same. apply H. cbn. auto.
  - apply set_nth_other. intros ->. apply J. cbn. auto.
Qed.
Lemma gather_ok mem idx rows : gather mem idx = Ok rows -> (forall i, In i idx -> i < length mem) /\ rows = map (fun i => nth i mem []) idx.
Proof.
  revert rows. induction idx as [|i idx IH]; intros rows H; [injection H as <-; split; [contradiction|reflexivity]|].
  unfold gather in H. cbn in H. destruct (nth_error mem i) as [r|] eqn:E; [|discriminate]. cbn in H. fold (gather mem idx) in H. destruct (gather mem idx) as [rs|] eqn:G; [|discriminate]. injection H as <-.
  destruct (IH rs eq_refl) as [A ->]. split; [intros k [<-|Hk]; auto; apply nth_error_Some; congruence|]. cbn. f_equal. symmetry. now apply nth_error_nth.
Qed.
Lemma gather_total mem idx : (forall i, In i idx -> i < length mem) -> gather mem idx = Ok (map (fun i => nth i mem []) idx).
Proof.
  intros H. unfold gather. apply mapM_ok. intros i Hi. specialize (H i Hi). destruct (nth_error mem i) as [r|] eqn:E; [|apply nth_error_None in E; lia]. now rewrite (nth_error_nth _ _ [] E).
Qed.
Lemma bank_update_spec m mem idx new mem' : bank_update m mem idx new = Ok mem' -> length mem' = length mem /\
  forall j r, nth_error mem j = Some r -> nth_error mem' j = Some (if in_dec Nat.eq_dec j idx then vscale (1 - m) r else r).
Proof.
  unfold bank_update. intros H. destruct (gather mem idx) as [old|] eqn:G; [|discriminate]. injection H as <-. apply gather_ok in G as [B ->]. split; [apply scatter_length|].
  intros j r E. rewrite map_map, (scatter_map (fun i => vscale (1 - m) (nth i mem []))) by auto. destruct (in_dec Nat.eq_dec j idx); auto. now rewrite (nth_error_nth _ _ [] E).
Qed.
Lemma vscale_vscale a b r : vscale a (vscale b r) = vscale (a * b) r.
Proof. unfold vscale. rewrite map_map. apply map_ext. intros. ring. Qed.
Lemma vscale_1 r : vscale 1 r = r.
Proof. unfold vscale. rewrite <- (map_id r) at 2. apply map_ext. intros. ring. Qed.
Lemma bank_run_spec m batches : forall mem mem', bank_run m mem batches = Ok mem' -> length mem' = length mem /\
  forall j r, nth_error mem j = Some r -> nth_error mem' j = Some (vscale ((1 - m) ^ visits j batches) r).
Proof.
  induction batches as [|[idx new] batches IH]; intros mem mem' H.
  - injection H as <-. split; auto. intros j r E. cbn. now rewrite vscale_1.
  - cbn in H. destruct (bank_update m mem idx new) as [m1|] eqn:U; [|discriminate]. cbn in H. apply bank_update_spec in U as [L1 N1]. apply IH in H as [L2 N2]. split; [lia|].
    intros j r E. specialize (N1 j r E). specialize (N2 j _ N1). rewrite N2. f_equal. cbn [visits]. destruct (in_dec Nat.eq_dec j idx); [|reflexivity].
    rewrite vscale_vscale. f_equal. cbn. ring.
Qed.

(** ** Numbers of the samples *)
Fixpoint nums (pre l : list Z) : list nat := match l with [] => [] | x :: l' => length (filter (Z.eqb x) pre) :: nums (pre ++ [x]) l' end.
Lemma sample_numbers_nums sd : sample_numbers sd = nums [] sd.
Proof.
  assert (G : forall l pre, map (fun i => length (filter (Z.eqb (nth i (pre ++ l) 0%Z)) (firstn i (pre ++ l)))) (seq (length pre) (length l)) = nums pre l).
  { induction l as [|x l IH]; intros pre; [reflexivity|]. cbn [length seq map nums]. f_equal.
    - rewrite app_nth2, Nat.sub_diag by lia. cbn. rewrite firstn_app, Nat.sub_diag, firstn_all. cbn. now rewrite app_nil_r.
    - specialize (IH (pre ++ [x])). rewrite <- app_assoc in IH. cbn in IH. rewrite app_length in IH. cbn in IH. rewrite Nat.add_1_r in IH. exact IH. }
  apply (G sd []).
Qed.
Lemma target_numbers_single t : (t < 0)%Z -> forall sd, (forall d, In d sd -> (d < 0)%Z -> d = t) -> target_numbers sd = seq 0 (length (filter (fun d => (d <? 0)%Z) sd)).
Proof.
  intros Ht. assert (G : forall l pre, (forall d, In d (pre ++ l) -> (d < 0)%Z -> d = t) ->
    map snd (filter (fun p => (fst p <? 0)%Z) (combine l (nums pre l))) = seq (length (filter (fun d => (d <? 0)%Z) pre)) (length (filter (fun d => (d <? 0)%Z) l))).
  { induction l as [|x l IH]; intros pre H; [reflexivity|]. cbn [nums combine filter fst]. assert (H' : forall d, In d ((pre ++ [x]) ++ l) -> (d < 0)%Z -> d = t) by (rewrite <- app_assoc; exact H).
    specialize (IH (pre ++ [x]) H'). rewrite filter_app in IH. destruct (Z.ltb_spec x 0) as [N|N].
    - cbn [filter] in IH. rewrite (proj2 (Z.ltb_lt x 0) N) in IH. rewrite app_length in IH. cbn [length] in IH. rewrite Nat.add_1_r in IH. cbn [map snd length seq]. f_equal; [|exact IH].
      assert (x = t) by (apply H; auto; apply in_app_iff; cbn; auto). subst x. clear - H Ht. assert (H' : forall d, In d pre -> (d < 0)%Z -> d = t) by (intros; apply H; auto; apply in_app_iff; auto).
      clear H. induction pre as [|d pre IH]; [reflexivity|]. cbn [filter]. destruct (Z.eqb_spec t d) as [E|N].
      + subst d. rewrite (proj2 (Z.ltb_lt t 0) Ht). cbn. f_equal. apply IH. intros; apply H'; cbn; auto.
      + destruct (Z.ltb_spec d 0) as [M|M]; [exfalso; apply N; symmetry; apply H'; cbn; auto|]. apply IH. intros; apply H'; cbn; auto.
    - cbn [filter] in IH. rewrite (proj2 (Z.ltb_ge x 0)) in IH by lia. rewrite app_nil_r in IH. exact IH. }
  intros sd H. unfold target_numbers. rewrite sample_numbers_nums. exact (G sd [] H).
Qed.

(** ** Epoch counter *)
Lemma count_epochs_spec n : forall s, count_epochs n s = (seq (S (c_crit s)) n, mkCount (c_cb s) (c_crit s + n)).
Proof.
  induction n as [|n IH]; intros s; cbn; [destruct s; cbn; now rewrite Nat.add_0_r|]. rewrite IH. cbn. f_equal. f_equal. lia.
Qed.
Lemma count_fit_spec n s : count_fit n s = (seq (S (c_crit s)) n, mkCount 0 (c_crit s + n)).
Proof. unfold count_fit. now rewrite count_epochs_spec. Qed.

(** ** Spherical k-means *)
Lemma norm_sq x : (norm2 x * norm2 x = dot x x)%R.
Proof. apply sqrt_sqrt, dot_self_nonneg. Qed.
Lemma cauchy u : forall v, length u = length v -> (dot u v <= norm2 u * norm2 v)%R.
Proof.
  intros v L. pose proof (dot_self_nonneg u) as A. pose proof (dot_self_nonneg v) as B. pose proof (sqrt_pos (dot u u)) as C. pose proof (sqrt_pos (dot v v)) as D. fold (norm2 u) in C. fold (norm2 v) in D.
  assert (Q : (dot u v * dot u v <= dot u u * dot v v)%R).
  { assert (P : forall t, (0 <= dot u u - 2 * t * dot u v + t * t * dot v v)%R).
    { intros t. assert (E : dot (vsub u (vscale t v)) (vsub u (vscale t v)) = (dot u u - 2 * t * dot u v + t * t * dot v v)%R).
      { assert (Lv : length u = length (vscale t v)) by (now rewrite vscale_length). rewrite dot_sub_l, !dot_sub_r by auto. rewrite (dot_comm (vscale t v) u), !dot_scale_r, dot_scale_l. ring. }
      rewrite <- E. apply dot_self_nonneg. }
    destruct (Req_dec (dot v v) 0) as [Z|N].
    - rewrite Z, Rmult_0_r. destruct (Req_dec (dot u v) 0) as [Y|Y]; [rewrite Y; lra|]. exfalso. specialize (P ((dot u u + 1) / (2 * dot u v))%R). rewrite Z in P. replace (2 * ((dot u u + 1) / (2 * dot u v)) * dot u v)%R with (dot u u + 1)%R in P by (field; auto). lra.
    - assert (V : (0 < dot v v)%R) by lra. specialize (P (dot u v / dot v v)%R). replace (dot u u - 2 * (dot u v / dot v v) * dot u v + dot u v / dot v v * (dot u v / dot v v) * dot v v)%R with ((dot u u * dot v v - dot u v * dot u v) / dot v v)%R in P by (field; auto).
      assert (0 <= (dot u u * dot v v - dot u v * dot u v) / dot v v * dot v v)%R by (apply Rmult_le_pos; lra). unfold Rdiv in H. rewrite Rmult_assoc, Rinv_l in H by auto. lra. }
  rewrite <- (norm_sq u), <- (norm_sq v) in Q. destruct (Rle_dec (dot u v) 0); [nra|]. apply Rsqr_incr_0_var; [unfold Rsqr; nra|nra].
Qed.
Lemma cos_eps_pos : (0 < cos_eps)%R.
Proof. unfold cos_eps. lra. Qed.
Lemma norm2_unit x : unit x -> norm2 x = 1%R.
Proof. unfold unit, norm2. intros ->. apply sqrt_1. Qed.
Lemma cosine_unit x c : unit x -> cosine x c = (dot x c / Rmax (norm2 c) cos_eps)%R.
Proof. intros U. unfold cosine. rewrite (norm2_unit x U). rewrite Rmax_left; [f_equal; ring|]. unfold cos_eps. lra. Qed.
Lemma vsum_rows_length d rows : rect d rows -> length (vsum_rows d rows) = d.
Proof. intros H. induction rows as [|r rows IH]; [apply repeat_length|]. change (vsum_rows d (r :: rows)) with (vadd r (vsum_rows d rows)). rewrite vadd_length; [apply H; cbn; auto|]. rewrite (IH (fun x Hx => H x (or_intror Hx))). apply H. cbn. auto. Qed.
Lemma dot_repeat0 x n : dot x (repeat 0%R n) = 0%R.
Proof. revert n. induction x as [|a x IH]; intros [|n]; cbn; auto. unfold dot in *. cbn. rewrite IH. ring. Qed.
Lemma dot_vsum_rows d rows c : rect d rows -> length c = d -> dot c (vsum_rows d rows) = vsum (map (dot c) rows).
Proof.
  intros H L. induction rows as [|r rows IH]; [apply dot_repeat0|]. change (vsum_rows d (r :: rows)) with (vadd r (vsum_rows d rows)). rewrite dot_add_r.
  - rewrite IH; [reflexivity|]. intros x Hx. apply H. cbn. auto.
  - rewrite vsum_rows_length; [apply H; cbn; auto|]. intros x Hx. apply H. cbn. auto.
Qed.
Lemma members_in k labels X x : In x (members k labels X) -> In x X.
Proof. unfold members. intros H. apply in_map_iff in H as ([l y] & <- & H). apply filter_In in H as [H _]. now apply in_combine_r in H. Qed.
Lemma members_rect d k labels X : rect d X -> rect d (members k labels X).
Proof. intros H x Hx. apply H. eapply members_in; eauto. Qed.

(** The similarity of a cluster to a centroid. *)
Definition similarity (rows : list (list R)) (c : list R) : R := vsum (map (fun x => cosine x c) rows).
Lemma similarity_unit d rows c : rect d rows -> (forall x, In x rows -> unit x) -> length c = d -> similarity rows c = (dot c (vsum_rows d rows) / Rmax (norm2 c) cos_eps)%R.
Proof.
  intros HR HU L. unfold similarity. rewrite (dot_vsum_rows d) by auto. rewrite <- vsum_div, map_map. apply vsum_ext. intros x Hx. rewrite cosine_unit by auto. now rewrite dot_comm.
Qed.
Lemma centroid_best d rows c : rect d rows -> (forall x, In x rows -> unit x) -> length c = d ->
  let S := vsum_rows d rows in norm2 S = 0%R \/ (cos_eps <= norm2 S)%R -> (similarity rows c <= similarity rows S)%R.
Proof.
  intros HR HU L S HS. assert (LS : length S = d) by (now apply vsum_rows_length). rewrite !(similarity_unit d) by auto. fold S.
  pose proof cos_eps_pos as CE. pose proof (Rmax_l (norm2 c) cos_eps) as M1. pose proof (Rmax_r (norm2 c) cos_eps) as M2. assert (NS : (0 <= norm2 S)%R) by apply sqrt_pos. assert (NC : (0 <= norm2 c)%R) by apply sqrt_pos.
  assert (A : (dot c S / Rmax (norm2 c) cos_eps <= norm2 S)%R).
  { apply Rmult_le_reg_r with (Rmax (norm2 c) cos_eps); [lra|]. unfold Rdiv. rewrite Rmult_assoc, Rinv_l, Rmult_1_r by lra. pose proof (cauchy c S ltac:(lia)). nra. }
  assert (B : (dot S S / Rmax (norm2 S) cos_eps = norm2 S)%R).
  { rewrite <- norm_sq. destruct HS as [Z|P]; [rewrite Z; unfold Rdiv; ring|]. rewrite Rmax_left by auto. field. lra. }
  lra.
Qed.

(** The inertia is a sum over the clusters. *)
Lemma inertia_split m X : forall labels cents, length labels = length X -> (forall l, In l labels -> l < m) ->
  inertia_of X cents labels = (1 / 2 * (INR (length X) - vsum (map (fun k => similarity (members k labels X) (nth k cents [])) (seq 0 m))))%R.
Proof.
  induction X as [|x X IH]; intros [|l labels] cents L H; try discriminate.
  - assert (Z : vsum (map (fun k => similarity (members k [] []) (nth k cents [])) (seq 0 m)) = 0%R) by exact (vsum_zero (seq 0 m)).
    rewrite Z. unfold inertia_of. cbn. ring.
  - assert (E : vsum (map (fun k => similarity (members k (l :: labels) (x :: X)) (nth k cents [])) (seq 0 m)) =
      (cosine x (nth l cents []) + vsum (map (fun k => similarity (members k labels X) (nth k cents [])) (seq 0 m)))%R).
    { rewrite (vsum_ext _ (fun k => ((if l =? k then cosine x (nth l cents []) else 0) + similarity (members k labels X) (nth k cents []))%R)).
      - rewrite vsum_plus. f_equal. assert (HL : l < m) by (apply H; cbn; auto). clear - HL.
        assert (G : forall n s, vsum (map (fun k => if l =? k then cosine x (nth l cents []) else 0%R) (seq s n)) = if (s <=? l) && (l <? s + n) then cosine x (nth l cents []) else 0%R).
        { induction n as [|n IH]; intros s; cbn [seq map vsum]; [destruct (Nat.leb_spec s l), (Nat.ltb_spec l (s + 0)); try reflexivity; lia|]. rewrite IH.
          destruct (Nat.eqb_spec l s); destruct (Nat.leb_spec (S s) l); destruct (Nat.ltb_spec l (S s + n)); destruct (Nat.leb_spec s l); destruct (Nat.ltb_spec l (s + S n)); cbn; try lia; lra. }
        rewrite G. now rewrite (proj2 (Nat.ltb_lt l (0 + m)) HL).
      - intros k _. unfold members, similarity. cbn [combine filter fst]. destruct (Nat.eqb_spec l k) as [->|N]; cbn; ring. }
    rewrite E. unfold inertia_of. cbn [map2 vsum]. fold (inertia_of X cents labels). rewrite (IH labels cents) by (auto; intros; apply H; cbn; auto). unfold dissim. cbn [length]. rewrite S_INR. lra.
Qed.
Lemma update_length K d labels X cents : length (update K d labels X cents) = length cents.
Proof. unfold update. now rewrite map_length, seq_length. Qed.
Lemma update_nth K d labels X cents k : k < length cents -> length cents <= K -> nth k (update K d labels X cents) [] = vsum_rows d (members k labels X).
Proof.
  intros H HK. unfold update. rewrite (nth_indep _ [] ((fun k0 => if k0 <? K then new_centroid d labels X k0 else repeat 0%R d) 0)) by (rewrite map_length, seq_length; auto).
  rewrite (map_nth (fun k0 => if k0 <? K then new_centroid d labels X k0 else repeat 0%R d)), seq_nth by auto. rewrite (proj2 (Nat.ltb_lt (0 + k) K)) by lia. reflexivity.
Qed.
Lemma update_rect K d labels X cents : rect d X -> rect d (update K d labels X cents).
Proof.
  intros HR r H. apply in_map_iff in H as (k & <- & _). destruct (k <? K); [|apply repeat_length]. apply vsum_rows_length. now apply members_rect.
Qed.
(** Cluster sums that vanish or are not tiny. *)
Definition not_tiny (d : nat) (X : list (list R)) : Prop := forall labels k, length labels = length X -> norm2 (vsum_rows d (members k labels X)) = 0%R \/ (cos_eps <= norm2 (vsum_rows d (members k labels X)))%R.
Lemma update_descent K d labels X cents : rect d X -> (forall x, In x X -> unit x) -> not_tiny d X -> rect d cents -> length cents <= K ->
  length labels = length X -> (forall l, In l labels -> l < length cents) ->
  (inertia_of X (update K d labels X cents) labels <= inertia_of X cents labels)%R.
Proof.
  intros HX HU NT HC HK L HL. rewrite !(inertia_split (length cents)) by auto.
  assert (Q : (vsum (map (fun k => similarity (members k labels X) (nth k cents [])) (seq 0 (length cents))) <=
            vsum (map (fun k => similarity (members k labels X) (nth k (update K d labels X cents) [])) (seq 0 (length cents))))%R); [|lra].
  apply vsum_le_map. intros k Hk. apply in_seq in Hk. rewrite update_nth by lia. apply (centroid_best d).
  - now apply members_rect.
  - intros x Hx. apply HU. eapply members_in; eauto.
  - apply HC, nth_In. lia.
  - now apply NT.
Qed.
Lemma closest_spec cents x l : closest cents x = Ok l -> l < length cents /\ forall k, k < length cents -> (dissim x (nth l cents []) <= dissim x (nth k cents []))%R.
Proof.
  intros H. apply np_argmin_spec in H as (A & B & _). rewrite map_length in *. assert (E : forall i, i < length cents -> nth i (map (dissim x) cents) 0%R = dissim x (nth i cents [])).
  { intros i Hi. rewrite (nth_indep _ 0%R (dissim x [])) by (now rewrite map_length). apply map_nth. }
  split; auto. intros k Hk. specialize (B k Hk). now rewrite !E in B.
Qed.
Lemma closest_labels cents X : forall labels, mapM (closest cents) X = Ok labels -> length labels = length X /\ (forall l, In l labels -> l < length cents) /\
  forall other, length other = length X -> (forall l, In l other -> l < length cents) -> (inertia_of X cents labels <= inertia_of X cents other)%R.
Proof.
  induction X as [|x X IH]; intros labels H.
  - injection H as <-. repeat split; [contradiction|]. intros other _ _. unfold inertia_of. cbn. lra.
  - cbn in H. destruct (closest cents x) as [l|] eqn:C; [|discriminate]. cbn in H. destruct (mapM (closest cents) X) as [ls|] eqn:E; [|discriminate]. injection H as <-. apply closest_spec in C as [Hl Hm]. destruct (IH ls eq_refl) as (A & B & D).
    repeat split; [cbn; auto|intros k [<-|Hk]; auto|]. intros [|o other] L HO; [discriminate|]. unfold inertia_of. cbn [map2 vsum]. fold (inertia_of X cents ls) (inertia_of X cents other).
    assert (dissim x (nth l cents []) <= dissim x (nth o cents []))%R by (apply Hm, HO; cbn; auto). assert (inertia_of X cents ls <= inertia_of X cents other)%R by (apply D; [cbn in L; lia|intros; apply HO; cbn; auto]). lra.
Qed.

(** The loop. *)
Lemma kloop_spec K d tol X : forall fuel n cents last c r, kloop K d tol X fuel n cents last = Ok (c, r) ->
  (fuel = 0 /\ c = cents /\ r = last) \/
  (0 < fuel /\ exists labels m prev, r = Some (labels, m) /\ n <= m < n + fuel /\ mapM (closest prev) X = Ok labels /\
     ((c = prev /\ allclose tol c (update K d labels X c) = true) \/ (S m = n + fuel /\ c = update K d labels X prev))).
Proof.
  induction fuel as [|fuel IH]; intros n cents last c r H; [injection H as <- <-; auto|]. right. split; [lia|]. cbn in H. destruct (mapM (closest cents) X) as [labels|] eqn:E; [|discriminate]. cbn in H.
  destruct (allclose tol cents (update K d labels X cents)) eqn:A.
  - injection H as <- <-. exists labels, n, cents. repeat split; auto; lia.
  - apply IH in H as [(-> & -> & ->)|(P & ls & m & prev & -> & B & M & O)].
    + exists labels, n, cents. repeat split; auto; try lia. right. split; auto; lia.
    + exists ls, m, prev. repeat split; auto; try lia. destruct O as [O|[O1 O2]]; auto. right. split; auto; lia.
Qed.
Lemma kloop_descent K d tol X : rect d X -> (forall x, In x X -> unit x) -> not_tiny d X -> forall fuel n cents last c labels m,
  rect d cents -> length cents <= K -> kloop K d tol X (S fuel) n cents last = Ok (c, Some (labels, m)) ->
  exists l0, mapM (closest cents) X = Ok l0 /\ (inertia_of X c labels <= inertia_of X cents l0)%R.
Proof.
  intros HX HU NT. induction fuel as [|fuel IH]; intros n cents last c labels m HC HK H; cbn in H; destruct (mapM (closest cents) X) as [l0|] eqn:E; try discriminate; cbn in H;
    destruct (closest_labels _ _ _ E) as (L & B & _); exists l0; (split; [reflexivity|]); destruct (allclose tol cents (update K d l0 X cents)).
  - injection H as <- <- <-. lra.
  - injection H as <- <- <-. now apply update_descent.
  - injection H as <- <- <-. lra.
  - change (kloop K d tol X (S fuel) (S n) (update K d l0 X cents) (Some (l0, n)) = Ok (c, Some (labels, m))) in H.
    destruct (IH _ _ _ _ _ _ (update_rect K d l0 X cents HX) (eq_ind_r (fun z => z <= K) HK (update_length K d l0 X cents)) H) as (l1 & E1 & D1).
    destruct (closest_labels _ _ _ E1) as (_ & _ & D2). rewrite update_length in D2. specialize (D2 l0 L B).
    pose proof (update_descent K d l0 X cents HX HU NT HC HK L B). lra.
Qed.

(** The best run. *)
Lemma best_of_spec run : forall inits best r, best_of run inits best = Ok r -> exists runs, mapM run inits = Ok runs /\
  match best with
  | None => (inits = [] /\ r = None) \/ exists i b, r = Some b /\ nth_error runs i = Some b /\
       forall j b', nth_error runs j = Some b' -> (fst (fst b) <= fst (fst b'))%R /\ (j < i -> (fst (fst b) < fst (fst b'))%R)
  | Some b0 => exists b, r = Some b /\ (fst (fst b) <= fst (fst b0))%R /\ (forall j b', nth_error runs j = Some b' -> (fst (fst b) <= fst (fst b'))%R) /\
       (b = b0 \/ exists i, nth_error runs i = Some b /\ (fst (fst b) < fst (fst b0))%R /\ forall j b', nth_error runs j = Some b' -> j < i -> (fst (fst b) < fst (fst b'))%R)
  end.
Proof.
  induction inits as [|c inits IH]; intros best r H.
  - injection H as <-. exists []. split; [reflexivity|]. destruct best as [b|]; [|auto]. exists b. repeat split; auto; [lra|]. intros [|j] b' E; discriminate.
  - cbn in H. destruct (run c) as [r0|] eqn:ER; [|discriminate]. cbn in H. apply IH in H as (runs & M & Q). exists (r0 :: runs). split; [cbn; rewrite ER; cbn; now rewrite M|].
    destruct best as [b0|].
    + destruct (Rltb (fst (fst r0)) (fst (fst b0))) eqn:LT.
      * apply Rltb_iff in LT. destruct Q as (b & -> & A & B & C). exists b. repeat split; auto; [lra| |].
        -- intros [|j] b' E; [injection E as <-; lra|eauto].
        -- right. destruct C as [->|(i & N & P & F)]; [exists 0; repeat split; auto; intros j b' _ Hj; lia|]. exists (S i). repeat split; auto; [lra|]. intros [|j] b' E Hj; [injection E as <-; lra|]. apply (F j); auto. lia.
      * apply Rltb_false in LT. destruct Q as (b & -> & A & B & C). exists b. repeat split; auto.
        -- intros [|j] b' E; [injection E as <-; lra|eauto].
        -- destruct C as [->|(i & N & P & F)]; [auto|]. right. exists (S i). repeat split; auto. intros [|j] b' E Hj; [injection E as <-; lra|]. apply (F j); auto. lia.
    + right. destruct Q as (b & -> & A & B & C). destruct C as [->|(i & N & P & F)].
      * exists 0, r0. repeat split; auto; try lia. destruct j as [|j]; [injection H as <-; lra|]. apply (B j). auto.
      * exists (S i), b. repeat split; auto.
        -- destruct j as [|j]; [injection H as <-; lra|]. apply (B j). auto.
        -- destruct j as [|j]; [injection H as <-; lra|]. intros Hj. apply (F j); auto. lia.
Qed.
