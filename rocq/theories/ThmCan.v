(** C192: the clusters of CAN are the classes. *)
From Coq Require Import String List ZArith Bool Arith Lia Reals Lra.
From Verif Require Import Np NpFacts RVec RVecFacts LossModel LossSpec LossProofs ThmLoss CallModel CallSpec CallProofs ThmCall ThmKmeans CanModel.
Import ListNotations.
Local Open Scope nat_scope.

(** ** Specification (angles and directions: see ThmKmeans.v) *)
(** The mean direction of the samples with label [k], up to its length. *)
Definition class_direction (d : nat) (labels : list nat) (X : list (list R)) (k : nat) : list R :=
  sum_of d (map direction (map snd (filter (fun p => fst p =? k) (combine labels X)))).
(** Every sample is closer in angle to the direction of its own class than to the others. *)
Definition separated (n : nat) (dir : nat -> list R) (labels : list nat) (X : list (list R)) : Prop :=
  forall x l k, In (l, x) (combine labels X) -> k < n -> k <> l -> (cos_angle x (dir k) < cos_angle x (dir l))%R.
(** Labels of classes numbered from 0, each class being there. *)
Definition all_classes (n : nat) (labels : list nat) : Prop := (forall l, In l labels -> l < n) /\ forall k, k < n -> In k labels.

(** ** Proofs *)
Lemma closest_strict dirs x l : far x -> (forall c, In c dirs -> far c) -> l < length dirs ->
  (forall k, k < length dirs -> k <> l -> (cos_angle x (nth k dirs []) < cos_angle x (nth l dirs []))%R) -> closest dirs x = Ok l.
Proof.
  intros Fx FC Hl S1. unfold closest. destruct (np_argmin (map (dissim x) dirs)) as [i|e] eqn:E.
  - apply np_argmin_spec in E as (B & M & _). rewrite map_length in B, M. f_equal. destruct (Nat.eq_dec i l) as [|N]; [auto|exfalso].
    specialize (M l Hl). assert (D : forall k, k < length dirs -> nth k (map (dissim x) dirs) 0%R = (1 / 2 * (1 - cos_angle x (nth k dirs [])))%R).
    { intros k Hk. rewrite (nth_indep _ 0%R (dissim x [])) by (now rewrite map_length). rewrite map_nth. unfold dissim. rewrite cosine_angle; auto. apply FC, nth_In; auto. }
    rewrite !D in M by auto. specialize (S1 i B N). lra.
  - destruct dirs; [cbn in Hl; lia|discriminate E].
Qed.
Lemma closest_all n dir labels : forall X, (forall k, k < n -> far (dir k)) -> Forall far X -> length labels = length X -> (forall l, In l labels -> l < n) -> separated n dir labels X ->
  mapM (closest (map dir (seq 0 n))) X = Ok labels.
Proof.
  induction labels as [|l labels IH]; intros [|x X] FD FX L B S1; try discriminate L; [reflexivity|]. cbn [mapM]. inversion FX as [|? ? Fx FX']; subst.
  assert (NT : forall k, k < n -> nth k (map dir (seq 0 n)) [] = dir k).
  { intros k Hk. rewrite (nth_indep _ [] (dir 0)) by (now rewrite map_length, seq_length). rewrite map_nth. now rewrite seq_nth. }
  rewrite (closest_strict _ x l Fx).
  - cbn [bind]. rewrite IH; auto. { intros k Hk. apply B. now right. } intros y k j Hy. apply S1. now right.
  - intros c Hc. apply in_map_iff in Hc as (k & <- & Hk). apply in_seq in Hk. apply FD. lia.
  - rewrite map_length, seq_length. apply B. now left.
  - intros k Hk N. rewrite map_length, seq_length in Hk. rewrite !NT by (auto; apply B; now left). apply S1; auto. now left.
Qed.
Lemma closest_all_norm cents X labels : Forall far X -> mapM (closest cents) X = Ok labels -> mapM (closest cents) (map normalise X) = Ok labels.
Proof. intros F H. exact (eq_trans (closest_normalise (mkFit 0 cents 0) X F) H). Qed.
Lemma members_directions k labels : forall X, length labels = length X -> members k labels (map normalise X) = map direction (map snd (filter (fun p => fst p =? k) (combine labels X))).
Proof.
  unfold members. induction labels as [|l labels IH]; intros [|x X] L; try discriminate L; [reflexivity|]. injection L as L. cbn [map combine filter fst]. specialize (IH X L).
  destruct (l =? k); cbn [map snd]; now rewrite IH, ?direction_normalise.
Qed.
Lemma members_rect d k labels X : rect d X -> rect d (map direction (map snd (filter (fun p : nat * list R => fst p =? k) (combine labels X)))).
Proof.
  intros H r Hr. apply in_map_iff in Hr as (q & <- & Hq). apply in_map_iff in Hq as ([l q'] & <- & Hq). apply filter_In in Hq as [Hq _]. apply in_combine_r in Hq.
  unfold direction. rewrite map_length. now apply H.
Qed.
Lemma update_directions n d labels X cents : rect d X -> length labels = length X -> length cents = n ->
  update n d labels (map normalise X) cents = map (class_direction d labels X) (seq 0 n).
Proof.
  intros H L <-. unfold update. apply map_ext_in. intros k Hk. apply in_seq in Hk. rewrite (proj2 (Nat.ltb_lt _ _)) by lia.
  unfold new_centroid, class_direction. rewrite members_directions by auto. symmetry. apply sum_of_rows. now apply members_rect.
Qed.
Lemma allclose_refl tol A : (0 <= tol)%R -> allclose tol A A = true.
Proof.
  intros Ht. unfold allclose. apply forallb_forall. intros [a b] Hp. assert (a = b). { clear - Hp. induction A as [|r A IH]; [destruct Hp|]. destruct Hp as [[= <- <-]|Hp]; auto. } subst b. cbn [fst snd].
  apply forallb_forall. intros [u v] Hq. assert (u = v). { clear - Hq. induction a as [|r a IH]; [destruct Hq|]. destruct Hq as [[= <- <-]|Hq]; auto. } subst v. cbn [fst snd].
  unfold close1. apply Rleb_iff. rewrite Rminus_diag_eq, Rabs_R0 by reflexivity. pose proof (Rabs_pos u). lra.
Qed.
Lemma f_normalize_far x : far x -> f_normalize x = direction x.
Proof. intros F. unfold f_normalize, direction. rewrite len_norm. apply far_norm in F. rewrite Rmax_left; [reflexivity|]. unfold cos_eps in F. lra. Qed.
Lemma of_label_nat k labels : forall X, of_label (Z.of_nat k) (map Z.of_nat labels) X = map snd (filter (fun p => fst p =? k) (combine labels X)).
Proof.
  unfold of_label. induction labels as [|l labels IH]; intros [|x X]; try reflexivity. cbn [map combine filter fst].
  replace (Z.of_nat l =? Z.of_nat k)%Z with (l =? k). - destruct (l =? k); cbn [map snd]; now rewrite IH.
  - destruct (Nat.eqb_spec l k) as [->|N]; [now rewrite Z.eqb_refl|]. symmetry. apply Z.eqb_neq. lia.
Qed.
Lemma centroids_directions d n ls F : 1 <= n -> length ls = length F -> rect d F -> Forall far F -> all_classes n ls ->
  source_centroids d (map Z.of_nat ls) F = Ok (map (class_direction d ls F) (seq 0 n)) /\ unique_count (map Z.of_nat ls) = n.
Proof.
  intros Hn L HR FF [A1 A2].
  assert (U : unique_count (map Z.of_nat ls) = n).
  { apply unique_classes. - intros l Hl. apply in_map_iff in Hl as (k & <- & Hk). specialize (A1 k Hk). lia. - intros c Hc. apply in_map, A2, Hc. }
  split; [|exact U]. unfold source_centroids. rewrite U.
  assert (NE : forall c, c < n -> map snd (filter (fun p => fst p =? c) (combine ls F)) <> []).
  { intros c Hc E. specialize (A2 c Hc). assert (I : exists f, In (c, f) (combine ls F)).
    { clear - A2 L. revert F L. induction ls as [|l ls IH]; intros [|f F] L; try discriminate L; [destruct A2|]. destruct A2 as [->|A2]; [exists f; now left|]. injection L as L. destruct (IH A2 F L) as [g Hg]. exists g. now right. }
    destruct I as [f If]. assert (J : In f (map snd (filter (fun p => fst p =? c) (combine ls F)))).
    { apply in_map_iff. exists (c, f). split; [reflexivity|]. apply filter_In. split; [auto|]. cbn. apply Nat.eqb_refl. }
    rewrite E in J. destruct J. }
  assert (G : forall s, (forall c, In c s -> c < n) -> flat_map (fun c => match of_label (Z.of_nat c) (map Z.of_nat ls) F with [] => [] | rows => [vsum_rows d (map f_normalize rows)] end) s = map (class_direction d ls F) s).
  { induction s as [|c s IH]; intros Hs; [reflexivity|]. cbn [flat_map]. rewrite IH by (intros; apply Hs; now right). rewrite of_label_nat.
    change (map (class_direction d ls F) (c :: s)) with (class_direction d ls F c :: map (class_direction d ls F) s).
    specialize (NE c (Hs c (or_introl eq_refl))). unfold class_direction. rewrite sum_of_rows by (now apply members_rect).
    assert (FM : forall q, In q (map snd (filter (fun p => fst p =? c) (combine ls F))) -> far q).
    { intros q Hq. apply in_map_iff in Hq as ([l q'] & <- & Hq). apply filter_In in Hq as [Hq _]. apply in_combine_r in Hq. rewrite Forall_forall in FF. now apply FF. }
    destruct (map snd (filter (fun p => fst p =? c) (combine ls F))) as [|r rows] eqn:E; [congruence|]. cbn [app]. do 2 f_equal. apply map_ext_in. intros q Hq. apply f_normalize_far. now apply FM. }
  rewrite G by (intros c Hc; apply in_seq in Hc; lia). destruct n; [lia|reflexivity].
Qed.

(** ** C192 *)

(** If the target samples are separated by the directions of the source classes and by those of their own (unseen) classes, the clustering
    computed at the beginning of an epoch gives every target sample the number of its class. *)
Theorem C192_clusters_are_classes : forall d n ys Fs yt Ft, 1 <= n -> length ys = length Fs -> length yt = length Ft -> rect d Fs -> rect d Ft -> Forall far Fs -> Forall far Ft ->
  all_classes n ys -> all_classes n yt ->
  (forall k, k < n -> far (class_direction d ys Fs k)) -> (forall k, k < n -> far (class_direction d yt Ft k)) ->
  separated n (class_direction d ys Fs) yt Ft -> separated n (class_direction d yt Ft) yt Ft ->
  exists f, can_epoch d (map Z.of_nat ys) Fs Ft = Ok f /\ kmeans_predict f Ft = Ok yt /\ f_n_iter f <= 2.
Proof.
  intros d n ys Fs yt Ft Hn Ls Lt Rs Rt Ns Nt As At Ds Dt S1 S2.
  destruct (centroids_directions d n ys Fs Hn Ls Rs Ns As) as [Ec Eu]. unfold can_epoch. rewrite Ec, Eu. cbn [bind].
  set (C0 := map (class_direction d ys Fs) (seq 0 n)). set (C1 := map (class_direction d yt Ft) (seq 0 n)).
  assert (P0 : mapM (closest C0) Ft = Ok yt) by (apply closest_all; auto; apply At).
  assert (P1 : mapM (closest C1) Ft = Ok yt) by (apply closest_all; auto; apply At).
  assert (L0 : length C0 = n) by (unfold C0; now rewrite map_length, seq_length). assert (L1 : length C1 = n) by (unfold C1; now rewrite map_length, seq_length).
  assert (U0 : update n d yt (map normalise Ft) C0 = C1) by (now apply update_directions). assert (U1 : update n d yt (map normalise Ft) C1 = C1) by (now apply update_directions).
  unfold kmeans_fit, run_single. change 300 with (S (S 298)). cbn [kloop]. rewrite (closest_all_norm _ _ _ Nt P0). cbn [bind]. rewrite U0.
  destruct (allclose (1 / 10 ^ 4) C0 C1).
  - cbn [bind]. eexists. split; [reflexivity|]. cbn [f_n_iter]. split; [exact P0|lia].
  - rewrite (closest_all_norm _ _ _ Nt P1). cbn [bind]. rewrite U1, allclose_refl by lra. cbn [bind]. eexists. split; [reflexivity|]. cbn [f_n_iter]. split; [exact P1|lia].
Qed.

(** Two classes in the plane; the targets are turned a little. *)
Example C192_ex : let Fs := [[2; 0]; [0; 1]]%R in let ys := [0; 1] in let Ft := [[3; 4]; [4; -3]]%R in let yt := [1; 0] in
  exists f, can_epoch 2 (map Z.of_nat ys) Fs Ft = Ok f /\ kmeans_predict f Ft = Ok yt.
Proof.
  assert (SQ : forall a b, (0 <= a)%R -> b = (a * a)%R -> sqrt b = a) by (intros a b H ->; now apply sqrt_square).
  assert (La : len [2; 0]%R = 2%R). { unfold len. cbn. apply SQ; [lra|ring]. }
  assert (Lb : len [0; 1]%R = 1%R). { unfold len. cbn. apply SQ; [lra|ring]. }
  assert (Lc : len [3; 4]%R = 5%R). { unfold len. cbn. apply SQ; [lra|ring]. }
  assert (Ld : len [4; -3]%R = 5%R). { unfold len. cbn. apply SQ; [lra|ring]. }
  assert (D0 : class_direction 2 [0; 1] [[2; 0]; [0; 1]]%R 0 = [1; 0]%R). { unfold class_direction, sum_of, direction. cbn. rewrite La. repeat (f_equal; try field). }
  assert (D1 : class_direction 2 [0; 1] [[2; 0]; [0; 1]]%R 1 = [0; 1]%R). { unfold class_direction, sum_of, direction. cbn. rewrite Lb. repeat (f_equal; try field). }
  assert (T0 : class_direction 2 [1; 0] [[3; 4]; [4; -3]]%R 0 = [4 / 5; - (3 / 5)]%R). { unfold class_direction, sum_of, direction. cbn. rewrite Ld. repeat (f_equal; try field). }
  assert (T1 : class_direction 2 [1; 0] [[3; 4]; [4; -3]]%R 1 = [3 / 5; 4 / 5]%R). { unfold class_direction, sum_of, direction. cbn. rewrite Lc. repeat (f_equal; try field). }
  assert (M0 : len [1; 0]%R = 1%R). { unfold len. cbn. apply SQ; [lra|ring]. }
  assert (M2 : len [4 / 5; - (3 / 5)]%R = 1%R). { unfold len. cbn. apply SQ; [lra|field]. }
  assert (M3 : len [3 / 5; 4 / 5]%R = 1%R). { unfold len. cbn. apply SQ; [lra|field]. }
  assert (AC : forall p, p = [0; 1] \/ p = [1; 0] -> all_classes 2 p).
  { intros p [->| ->]; split; cbn; intros l Hl; try (decompose [or] Hl; subst; try contradiction; lia); destruct l as [|[|l]]; auto; lia. }
  cbn zeta. destruct (C192_clusters_are_classes 2 2 [0; 1] [[2; 0]; [0; 1]]%R [1; 0] [[3; 4]; [4; -3]]%R) as (f & E & P & _); try reflexivity; auto.
  - intros r H. cbn in H. decompose [or] H; subst; try contradiction; reflexivity.
  - intros r H. cbn in H. decompose [or] H; subst; try contradiction; reflexivity.
  - repeat constructor; unfold far; rewrite ?La, ?Lb; lra.
  - repeat constructor; unfold far; rewrite ?Lc, ?Ld; lra.
  - intros [|[|k]] Hk; [rewrite D0|rewrite D1|lia]; unfold far; rewrite ?M0, ?Lb; lra.
  - intros [|[|k]] Hk; [rewrite T0|rewrite T1|lia]; unfold far; rewrite ?M2, ?M3; lra.
  - intros x l k H Hk N. cbn in H. destruct H as [H|[H|[]]]; injection H as <- <-; destruct k as [|[|k]]; try lia; rewrite D0, D1; unfold cos_angle, dot; rewrite ?M0, ?Lb, ?Lc, ?Ld; cbn; lra.
  - intros x l k H Hk N. cbn in H. destruct H as [H|[H|[]]]; injection H as <- <-; destruct k as [|[|k]]; try lia; rewrite T0, T1; unfold cos_angle, dot; rewrite ?M2, ?M3, ?Lc, ?Ld; cbn; lra.
  - exists f. auto.
Qed.
