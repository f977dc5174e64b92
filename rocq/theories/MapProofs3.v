From Coq Require Import List ZArith QArith Bool Arith Lia Reals Lra Permutation.
From Verif Require Import Np NpFacts Labels Spec SpecFacts UtilsModel UtilsSpec UtilsProofs UtilsProofs2 SelectModel RVec RVecFacts
  MapModel MapSpec MapProofs.
Import ListNotations.
Local Open Scope nat_scope.

(** * Kernel matrices *)
Lemma map2_app_map {A} (f g : A -> list R) l : map2 (@app R) (map f l) (map g l) = map (fun x => f x ++ g x) l.
Proof. induction l; simpl; congruence. Qed.

Lemma map_seq_nth {A B} (F : A -> B) (l : list A) d : map (fun j => F (nth j l d)) (seq 0 (length l)) = map F l.
Proof.
  induction l as [|a l IH]; simpl; auto. f_equal. rewrite <- seq_shift, map_map. exact IH.
Qed.

Lemma transpose_kmat {Row} (kern : Row -> Row -> R) A B :
  transpose (length B) (kmat Row kern A B) = map (fun b => map (fun a => kern a b) A) B.
Proof.
  destruct B as [|b0 B]; [reflexivity|]. set (l := b0 :: B).
  rewrite <- (map_seq_nth (fun b => map (fun a => kern a b) A) l b0). unfold transpose.
  apply map_ext_in. intros j Hj. apply in_seq in Hj. unfold kmat. rewrite map_map. apply map_ext. intros a.
  rewrite (nth_indep _ 0%R (kern a b0)) by (rewrite map_length; lia). apply map_nth.
Qed.

Lemma block_kernel_eq {Row} (kern : Row -> Row -> R) A B : (forall x y, kern x y = kern y x) ->
  block_kernel Row kern A B = map (fun x => map (kern x) (A ++ B)) (A ++ B).
Proof.
  intros S. unfold block_kernel. rewrite transpose_kmat. unfold kmat. rewrite !map2_app_map.
  rewrite map_app. f_equal.
  - apply map_ext. intros x. now rewrite map_app.
  - apply map_ext. intros x. rewrite map_app. f_equal. apply map_ext. intros; apply S.
Qed.

Lemma project_block {Row} (kern : Row -> Row -> R) basis V xs :
  project (map (fun x => map (kern x) basis) xs) V = map (kernel_image kern basis V) xs.
Proof. unfold project. rewrite map_map. reflexivity. Qed.

Lemma split_two {A} (xs : list A) sd : sd <> [] -> length sd = length xs ->
  source_target_split [Some xs] sd = Ok [Some (rows_of is_source sd xs); Some (rows_of is_target sd xs)].
Proof. intros H1 H2. rewrite split_ok; auto; [easy|]. intros ys [E|[]]. now injection E as <-. Qed.

Lemma halves_length {A} sd (xs : list A) : length sd = length xs ->
  length (rows_of is_source sd xs ++ rows_of is_target sd xs) = length xs.
Proof. intros H. rewrite app_length, !rows_of_length by auto. rewrite how_many_split. exact H. Qed.

Lemma sources_first_rows {A} sd (xs : list A) : length sd = length xs -> sources_first sd ->
  rows_of is_source sd xs ++ rows_of is_target sd xs = xs.
Proof.
  intros HL [a [b [-> [Ha Hb]]]]. rewrite !rows_of_select. revert xs HL.
  induction Ha as [|d a Hd Ha IH]; intros xs HL.
  - simpl in *. revert xs HL. induction Hb as [|d b Hd Hb IH]; intros [|x xs] HL; simpl in *; auto; try discriminate.
    rewrite Hd. assert (is_source d = false) as -> by (rewrite is_target_negb in Hd; now destruct (is_source d)).
    specialize (IH xs ltac:(lia)).
    assert (E : select (map is_source b) xs = []).
    { clear -Hb. revert xs. induction Hb as [|d b Hd Hb IH]; intros [|x xs]; simpl; auto.
      rewrite is_target_negb in Hd. destruct (is_source d); [discriminate|auto]. }
    rewrite E in *. simpl in *. now rewrite IH.
  - destruct xs as [|x xs]; [discriminate|]. simpl in *. rewrite Hd.
    assert (is_target d = false) as -> by (rewrite is_target_negb, Hd; reflexivity). simpl. f_equal. apply IH. lia.
Qed.

Lemma kernel_transform_train {Row} kern (eqb : list Row -> list Row -> bool) V X sda allow :
  (forall x y, kern x y = kern y x) -> (forall a, eqb a a = true) -> usable allow (length X) sda ->
  let sd := eff_domain (length X) sda in
  let basis := rows_of is_source sd X ++ rows_of is_target sd X in
  kernel_transform Row kern eqb allow (rows_of is_source sd X) (rows_of is_target sd X) V X sda =
  Ok (map (kernel_image kern basis V) basis).
Proof.
  intros S R U sd basis. unfold kernel_transform. rewrite (check_usable _ _ _ U). cbn [bind]. fold sd.
  assert (HL : length sd = length X) by apply U.
  rewrite split_two by (auto; eapply usable_nonempty; eauto). cbn [bind]. rewrite !R. cbn [andb].
  rewrite block_kernel_eq by auto. rewrite project_block. fold basis. f_equal. apply firstn_all2.
  rewrite map_length. unfold basis. now rewrite halves_length.
Qed.

Lemma kernel_transform_new {Row} kern (eqb : list Row -> list Row -> bool) V Xs Xt X sda allow :
  (forall a b, eqb a b = true -> a = b) -> usable allow (length X) sda ->
  let sd := eff_domain (length X) sda in
  (rows_of is_source sd X <> Xs \/ rows_of is_target sd X <> Xt) ->
  kernel_transform Row kern eqb allow Xs Xt V X sda = Ok (map (kernel_image kern (Xs ++ Xt) V) X).
Proof.
  intros S U sd N. unfold kernel_transform. rewrite (check_usable _ _ _ U). cbn [bind]. fold sd.
  assert (HL : length sd = length X) by apply U.
  rewrite split_two by (auto; eapply usable_nonempty; eauto). cbn [bind].
  assert (eqb (rows_of is_source sd X) Xs && eqb (rows_of is_target sd X) Xt = false) as ->.
  { destruct (eqb _ Xs) eqn:E1, (eqb _ Xt) eqn:E2; auto. apply S in E1, E2. tauto. }
  unfold kmat. rewrite map2_app_map.
  rewrite (map_ext _ (fun x => map (kern x) (Xs ++ Xt))) by (intros; now rewrite map_app).
  rewrite project_block. f_equal. apply firstn_all2. now rewrite map_length.
Qed.

(** * MultiLinearMonge *)
Lemma mlm_loop_ok mappings dt sd rows : length sd = length rows -> forall us out,
  (forall d, In d us -> exists f, dict_get Z.eqb d mappings = Some f) -> length out = length rows ->
  exists out', mlm_loop mappings dt rows (map (fun d => (d, positions (Z.eqb d) sd)) us) out = Ok out' /\ length out' = length rows /\
    forall i d x, nth_error sd i = Some d -> nth_error rows i = Some x ->
      nth_error out' i = if existsb (Z.eqb d) us
                         then option_map (fun f => map (cast dt) (f x)) (dict_get Z.eqb d mappings) else nth_error out i.
Proof.
  intros HL. induction us as [|u us IH]; intros out HM HO.
  - exists out. simpl. auto.
  - cbn [map mlm_loop]. destruct (HM u (or_introl eq_refl)) as [f Hf].
    unfold dict_getitem. rewrite Hf. cbn [bind].
    set (idx := positions (Z.eqb u) sd).
    assert (HI : Forall (fun i => i < length rows) idx).
    { apply Forall_forall. intros i Hi. apply positions_In in Hi as [y [Hy _]]. rewrite <- HL.
      apply nth_error_Some. congruence. }
    rewrite (np_take_ok idx rows [] HI). cbn [bind]. rewrite map_map.
    set (vals := map (fun i => map (cast dt) (f (nth i rows []))) idx).
    assert (HS : np_setidx idx vals out = Ok (place_idx idx vals out)).
    { unfold np_setidx. assert (forallb (fun i => i <? length out) idx = true) as ->.
      { apply forallb_forall. intros i Hi. rewrite Forall_forall in HI. apply Nat.ltb_lt. rewrite HO. auto. }
      unfold vals. now rewrite map_length, Nat.eqb_refl. }
    rewrite HS. cbn [bind].
    destruct (IH (place_idx idx vals out)) as [out' [E [L G]]].
    { intros; apply HM; now right. } { now rewrite place_idx_length. }
    exists out'. split; [exact E|]. split; [exact L|]. intros i d x Hd Hx. rewrite (G i d x Hd Hx).
    cbn [existsb]. destruct (existsb (Z.eqb d) us) eqn:EX; [now rewrite orb_true_r|]. rewrite orb_false_r.
    destruct (Z.eqb_spec d u) as [->|N].
    + rewrite Hf. cbn [option_map].
      assert (IN : In i idx) by (apply positions_In; exists u; split; auto; apply Z.eqb_refl).
      apply In_nth_error in IN as [k Hk].
      apply place_idx_nth with (k := k); auto.
      * apply positions_NoDup.
      * unfold vals. rewrite (map_nth_error _ _ _ Hk). do 3 f_equal. apply (nth_error_nth rows i [] Hx).
      * rewrite HO. apply nth_error_Some. congruence.
    + apply place_idx_notin. intros IN. apply positions_In in IN as [y [Hy E2]]. apply Z.eqb_eq in E2. congruence.
Qed.

Lemma mlm_loop_key mappings dt sd rows : length sd = length rows -> forall us out,
  (exists d, In d us /\ dict_get Z.eqb d mappings = None) -> length out = length rows ->
  mlm_loop mappings dt rows (map (fun d => (d, positions (Z.eqb d) sd)) us) out = Err KeyError.
Proof.
  intros HL. induction us as [|u us IH]; intros out [d [Hd HN]] HO; [easy|].
  cbn [map mlm_loop]. unfold dict_getitem. destruct (dict_get Z.eqb u mappings) as [f|] eqn:Hf; [|reflexivity].
  cbn [bind]. set (idx := positions (Z.eqb u) sd).
  assert (HI : Forall (fun i => i < length rows) idx).
  { apply Forall_forall. intros i Hi. apply positions_In in Hi as [y [Hy _]]. rewrite <- HL. apply nth_error_Some. congruence. }
  rewrite (np_take_ok idx rows [] HI). cbn [bind]. unfold np_setidx.
  assert (forallb (fun i => i <? length out) idx = true) as ->.
  { apply forallb_forall. intros i Hi. rewrite Forall_forall in HI. apply Nat.ltb_lt. rewrite HO. auto. }
  rewrite !map_length, Nat.eqb_refl. cbn [bind]. apply IH.
  - destruct Hd as [->|Hd]; [congruence|]. eauto.
  - now rewrite place_idx_length.
Qed.

Lemma dict_get_map_keys {V} (g : Z -> V) us d : dict_get Z.eqb d (map (fun u => (u, g u)) us) =
  if existsb (Z.eqb d) us then Some (g d) else None.
Proof.
  induction us as [|u us IH]; simpl; auto. destruct (Z.eqb_spec d u) as [->|]; simpl; auto.
Qed.

Lemma dict_get_set {V} k (v : V) d j : dict_get Z.eqb j (dict_set Z.eqb k v d) = if (j =? k)%Z then Some v else dict_get Z.eqb j d.
Proof.
  induction d as [|[k' v'] d IH]; simpl.
  - now destruct (j =? k)%Z.
  - destruct (Z.eqb_spec k k') as [->|N]; simpl.
    + destruct (Z.eqb_spec j k'); auto.
    + rewrite IH. destruct (Z.eqb_spec j k') as [->|]; auto. destruct (Z.eqb_spec k' k); congruence.
Qed.

Lemma dict_get_update {V} (g : Z -> V) us j : forall d, dict_get Z.eqb j (dict_update Z.eqb d (map (fun u => (u, g u)) us)) =
  if existsb (Z.eqb j) us then Some (g j) else dict_get Z.eqb j d.
Proof.
  unfold dict_update. induction us as [|u us IH]; intros d; simpl; auto.
  rewrite IH, dict_get_set. destruct (existsb (Z.eqb j) us); [now rewrite orb_true_r|]. rewrite orb_false_r.
  destruct (Z.eqb_spec j u) as [->|]; auto.
Qed.

Lemma existsb_filter_unique p sd d : existsb (Z.eqb d) (filter p (unique sd)) = true <-> In d sd /\ p d = true.
Proof.
  rewrite existsb_exists. split.
  - intros [x [Hx E]]. apply Z.eqb_eq in E as <-. apply filter_In in Hx as [H1 H2]. apply (proj1 (unique_In _ _)) in H1. auto.
  - intros [H1 H2]. exists d. split; [|apply Z.eqb_refl]. apply filter_In. split; auto. now apply unique_In.
Qed.

(** * MMD matrix *)
Lemma dot_app u1 u2 v1 v2 : length u1 = length v1 -> dot (u1 ++ u2) (v1 ++ v2) = (dot u1 v1 + dot u2 v2)%R.
Proof.
  revert v1. induction u1 as [|a u IH]; intros [|b v] H; simpl in H; try discriminate.
  - simpl. change (dot [] []) with 0%R. ring.
  - cbn [app]. rewrite !dot_cons, IH by lia. ring.
Qed.

Lemma dot_repeat_l a n u : length u = n -> dot (repeat a n) u = (a * vsum u)%R.
Proof.
  revert u. induction n as [|n IH]; intros [|x u] H; simpl in H; try discriminate.
  - unfold dot. simpl. ring.
  - cbn [repeat vsum]. rewrite dot_cons, IH by lia. ring.
Qed.

Lemma map_repeat_eq {A B} (f : A -> B) x n : map f (repeat x n) = repeat (f x) n.
Proof. induction n; simpl; congruence. Qed.

Lemma map2_app_repeat (u v : list R) n : map2 (@app R) (repeat u n) (repeat v n) = repeat (u ++ v) n.
Proof. induction n; simpl; congruence. Qed.

Lemma map_seq_const {B} (c : B) a n : map (fun _ => c) (seq a n) = repeat c n.
Proof. revert a. induction n; intros; simpl; auto. now rewrite IHn. Qed.

Lemma transpose_const c n m : transpose m (const_block c n m) = const_block c m n.
Proof.
  unfold transpose, const_block. rewrite <- (map_seq_const (repeat c n) 0 m). apply map_ext_in. intros j Hj.
  apply in_seq in Hj. rewrite map_repeat_eq. f_equal. rewrite nth_indep with (d' := c) by (rewrite repeat_length; lia). apply nth_repeat.
Qed.

Lemma mmd_quad fs ft : fs <> [] -> ft <> [] ->
  quad (mmd_matrix (length fs) (length ft)) (fs ++ ft) = ((mean fs - mean ft) * (mean fs - mean ft))%R.
Proof.
  intros Hs Ht. set (ns := length fs). set (nt := length ft).
  assert (Ns : (INR ns <> 0)%R) by (apply not_0_INR; unfold ns; destruct fs; simpl; congruence).
  assert (Nt : (INR nt <> 0)%R) by (apply not_0_INR; unfold nt; destruct ft; simpl; congruence).
  unfold quad, mmd_matrix. rewrite transpose_const. unfold const_block. rewrite !map2_app_repeat.
  unfold matvec. rewrite map_app, !map_repeat_eq.
  rewrite (dot_app fs ft) by (rewrite repeat_length; reflexivity).
  rewrite (dot_comm fs), (dot_comm ft), !dot_repeat_l by reflexivity.
  rewrite !dot_app by (rewrite repeat_length; reflexivity). rewrite !dot_repeat_l by reflexivity.
  unfold mean. fold ns nt. field. auto.
Qed.

Lemma dot_self_shift f c : vsum (map (fun x => (x - c) * (x - c))%R f) = (dot f f - 2 * c * vsum f + INR (length f) * c * c)%R.
Proof.
  induction f as [|x f IH]; [unfold dot; simpl; ring|].
  cbn [map vsum]. rewrite IH, dot_cons. change (length (x :: f)) with (S (length f)). rewrite S_INR. ring.
Qed.

Lemma dot_row_shift a : forall k n u, length u = n ->
  dot (map (fun j => (if k =? j then 1 else 0) - a)%R (seq 0 n)) u = (nth k u 0 - a * vsum u)%R.
Proof.
  assert (G : forall n s k u, length u = n -> s <= k ->
    dot (map (fun j => (if k =? j then 1 else 0) - a)%R (seq s n)) u = (nth (k - s) u 0 - a * vsum u)%R).
  { induction n as [|n IH]; intros s k [|x u] H Hk; simpl in H; try discriminate.
    - unfold dot. simpl. destruct (k - s); ring.
    - cbn [seq map]. rewrite dot_cons. cbn [vsum]. destruct (Nat.eqb_spec k s) as [->|N].
      + rewrite Nat.sub_diag. cbn [nth].
        assert (Z : forall n s k u, length u = n -> k < s -> dot (map (fun j => (if k =? j then 1 else 0) - a)%R (seq s n)) u = (- a * vsum u)%R).
        { clear. induction n as [|n IH]; intros s k [|x u] H Hk; simpl in H; try discriminate.
          - unfold dot. simpl. ring.
          - cbn [seq map]. rewrite dot_cons. cbn [vsum]. destruct (Nat.eqb_spec k s); [lia|]. rewrite IH by lia. ring. }
        rewrite Z by lia. ring.
      + rewrite IH by lia. replace (k - s) with (S (k - S s)) by lia. cbn [nth]. ring. }
  intros k n u H. rewrite G by (auto; lia). now rewrite Nat.sub_0_r.
Qed.

Lemma centring_quad f : f <> [] -> quad (centring_matrix (length f)) f = vsum (map (fun x => (x - mean f) * (x - mean f))%R f).
Proof.
  intros Hf. assert (N : (INR (length f) <> 0)%R) by (apply not_0_INR; destruct f; simpl; congruence).
  rewrite dot_self_shift. unfold quad, matvec, centring_matrix. rewrite map_map.
  rewrite (map_ext _ (fun i => (nth i f 0 - 1 / INR (length f) * vsum f)%R)).
  2:{ intros i. rewrite <- (dot_row_shift (1 / INR (length f)) i (length f) f eq_refl). f_equal. apply map_ext. intros j. ring. }
  rewrite (map_seq_nth (fun x => (x - 1 / INR (length f) * vsum f)%R) f 0%R).
  replace (map (fun x => (x - 1 / INR (length f) * vsum f)%R) f) with (vsub f (repeat (1 / INR (length f) * vsum f)%R (length f))).
  - rewrite dot_sub_r by (now rewrite repeat_length). rewrite (dot_comm f (repeat _ _)), dot_repeat_l by reflexivity.
    unfold mean. field. exact N.
  - generalize (1 / INR (length f) * vsum f)%R as c. clear. intros c. induction f; simpl; auto. unfold vsub in *. simpl. congruence.
Qed.

(** * TJM *)
Lemma tjm_first {Am} eig norms objective mask tol k (a : Am) : (0 < tol)%R ->
  eig (repeat 1%R (length mask)) = Ok a -> length (norms a) = length mask ->
  tjm_fit Am eig norms objective mask tol (S k) = Ok (a, [objective a]).
Proof.
  intros Ht Ea Hn. unfold tjm_fit. cbn [tjm_loop]. rewrite Ea. cbn [bind]. unfold tjm_g.
  rewrite np_setmask_scalar_ok by (rewrite !map_length; auto). cbn [bind].
  assert (Rltb (Rabs (-2 * tol - objective a) / (-2 * tol)) tol = true) as ->; [|now rewrite orb_true_r].
  apply Rltb_iff. apply Rle_lt_trans with 0%R; [|exact Ht].
  unfold Rdiv. assert (0 <= Rabs (-2 * tol - objective a))%R by apply Rabs_pos.
  assert (/ (-2 * tol) < 0)%R by (apply Rinv_lt_0_compat; lra). nra.
Qed.

(** Early stop of the loop from a positive previous value. *)
Lemma tjm_loop_stop {Am} eig norms objective mask tol : (forall a : Am, 0 < objective a)%R ->
  forall k last g A r, (0 < last)%R -> tjm_loop Am eig norms objective mask tol k last g A = Ok r ->
  length (snd r) <= k /\
  (length (snd r) < k -> exists pre x y, last :: snd r = pre ++ [x; y] /\ (rel_change x y < tol)%R).
Proof.
  intros Hp. induction k as [|k IH]; intros last g A r Hl E.
  - simpl in E. destruct A; [injection E as <-|discriminate]. simpl. split; [lia|lia].
  - cbn [tjm_loop] in E. apply bind_ok in E as [a [E1 E]]. apply bind_ok in E as [g' [E2 E]].
    destruct (Reqb last 0 || _) eqn:T.
    + injection E as <-. cbn [snd length]. split; [lia|]. intros _. exists [], last, (objective a). split; auto.
      apply orb_true_iff in T as [T|T]; [apply Reqb_iff in T; lra|]. apply Rltb_iff in T.
      unfold rel_change. now rewrite (Rabs_right last) by lra.
    + apply bind_ok in E as [r' [E3 E]]. injection E as <-. cbn [snd length].
      destruct (IH (objective a) g' (Some a) r' (Hp a) E3) as [I1 I2]. split; [lia|].
      intros H. destruct I2 as [pre [x [y [Q1 Q2]]]]; [lia|]. exists (last :: pre), x, y. split; auto.
      cbn [app]. now rewrite Q1.
Qed.

Lemma tjm_loop_all {Am} eig norms objective mask tol : (forall a : Am, 0 < objective a)%R -> (tol < 0)%R ->
  forall k last g A r, (0 < last)%R -> tjm_loop Am eig norms objective mask tol k last g A = Ok r -> length (snd r) = k.
Proof.
  intros Hp Ht. induction k as [|k IH]; intros last g A r Hl E.
  - simpl in E. destruct A; [injection E as <-|discriminate]. reflexivity.
  - cbn [tjm_loop] in E. apply bind_ok in E as [a [E1 E]]. apply bind_ok in E as [g' [E2 E]].
    destruct (Reqb last 0 || _) eqn:T.
    + exfalso. apply orb_true_iff in T as [T|T]; [apply Reqb_iff in T; lra|]. apply Rltb_iff in T.
      assert (0 <= Rabs (last - objective a) / last)%R; [|lra].
      apply Rmult_le_pos; [apply Rabs_pos|]. apply Rlt_le, Rinv_0_lt_compat, Hl.
    + apply bind_ok in E as [r' [E3 E]]. injection E as <-. cbn [snd length]. f_equal. eapply IH; [|exact E3]. apply Hp.
Qed.

(** * MMDLSConS *)
Lemma map_fst_combine {A B} (u : list A) : forall v : list B, length u = length v -> map fst (combine u v) = u.
Proof. induction u; intros [|b v] H; simpl in *; auto; try discriminate. f_equal. apply IHu. lia. Qed.

Lemma class_coef_map Coef czero veqb classes (g : val -> Coef) c : (forall a b, veqb a b = true <-> a = b) -> In c classes ->
  class_coef Coef czero veqb classes (map g classes) c = g c.
Proof.
  intros Hv Hin. unfold class_coef. induction classes as [|a l IH]; [easy|]. cbn [map combine find fst].
  destruct (veqb c a) eqn:E; [apply Hv in E; now subst|]. apply IH. destruct Hin as [->|]; auto.
  rewrite (proj2 (Hv c c)) in E by auto. discriminate.
Qed.

Lemma ls_merge Coef app czero eqb nearest veqb (st : ls_state Coef) X y sda cs :
  usable true (a_len X) sda -> table X -> (forall l, y = Some l -> length l = a_len X) ->
  let sd := eff_domain (a_len X) sda in
  (rows_of is_source sd (a_rows X) <> [] ->
     ls_coefs Coef czero eqb nearest veqb st (rows_of is_source sd (a_rows X)) (option_map (rows_of is_source sd) y) = Ok cs /\
     length cs = length (rows_of is_source sd (a_rows X))) ->
  exists m, ls_transform Coef app czero eqb nearest veqb true st X y sda = Ok m /\
    merged sd (map2 app cs (rows_of is_source sd (a_rows X))) (rows_of is_target sd (a_rows X)) (a_rows m).
Proof.
  intros U [Tp Tw] Hy sd HC. unfold ls_transform. rewrite (check_usable _ _ _ U). cbn [bind]. fold sd.
  assert (HL : length sd = a_len X) by apply U. assert (Hsd : sd <> []) by (eapply usable_nonempty; eauto).
  rewrite extract_source_ok by auto. cbn [bind].
  rewrite !np_select_ok by (rewrite ?map_length; auto). cbn [bind]. rewrite map_map.
  rewrite (map_ext (fun d => negb (is_source d)) is_target) by (intros d; symmetry; apply is_target_negb).
  rewrite <- !rows_of_select. set (Xs := rows_of is_source sd (a_rows X)) in *. set (Xt := rows_of is_target sd (a_rows X)).
  assert (Ls : length Xs = how_many is_source sd) by (apply rows_of_length; auto).
  assert (Lt : length Xt = how_many is_target sd) by (apply rows_of_length; auto).
  assert (Wt : wf_arr (mkArr (a_dt X) (a_tail X) Xt)) by (apply (half_wf is_target sd X Tw)).
  destruct (Nat.eqb_spec (length Xs) 0) as [Z|Z].
  - cbn [bind]. destruct (merge_two sd (mkArr (a_dt X) (a_tail X) Xs) (mkArr (a_dt X) (a_tail X) Xt)) as [m [E [M _]]]; auto.
    + intros _ D. split; [apply (half_wf is_source sd X Tw D)|apply (Wt D)].
    + rewrite E. cbn [bind fst]. exists m. split; auto. cbn [a_rows] in M.
      apply length_zero_iff_nil in Z. rewrite Z in *. replace (map2 app cs []) with (@nil (list val)) by (now destruct cs). exact M.
  - destruct HC as [HC1 HC2]; [intros Q; apply Z; now rewrite Q|].
    assert (Ey : (match y with None => Ok None | Some l => r <- np_select (map is_source sd) l ;; Ok (Some r) end) = Ok (option_map (rows_of is_source sd) y)).
    { destruct y as [l|]; auto. rewrite np_select_ok by (rewrite map_length, HL; symmetry; auto). cbn [bind option_map]. now rewrite rows_of_select. }
    rewrite Ey. cbn [bind]. rewrite HC1. cbn [bind]. rewrite np_map2_eq by auto. cbn [bind].
    destruct (merge_two sd (mkArr DFloat (a_tail X) (map2 app cs Xs)) (mkArr (a_dt X) (a_tail X) Xt)) as [m [E [M _]]]; auto.
    + unfold a_len. cbn [a_rows]. rewrite map2_length; auto. congruence.
    + discriminate.
    + rewrite E. cbn [bind fst]. exists m. split; auto.
Qed.
