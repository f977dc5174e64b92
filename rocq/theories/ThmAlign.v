(** Theorems C141, C145 and C146: graph alignment loss, gradient reversal, the SPA loss. *)
From Coq Require Import String List ZArith Bool Arith Lia Reals Lra Permutation.
From Verif Require Import Np NpFacts RVec RVecFacts LossModel LossSpec LossProofs CallModel CallSpec CallProofs AlignModel AlignSpec.
Import ListNotations.
Local Open Scope nat_scope.
Local Open Scope list_scope.

Section GDA.
  Variable sv : nat -> (nat -> nat -> R) -> list R.
  Hypothesis SV : singular_values sv.

Lemma sv_ext n M M' : (forall i j, i < n -> j < n -> M' i j = M i j) -> sv n M' = sv n M.
Proof.
  intros H. apply (proj2 SV n M M' (seq 0 n)); [apply Permutation_refl|]. intros i j Hi Hj. rewrite !seq_nth by assumption. apply H; assumption.
Qed.

Lemma vsum_perm l l' : Permutation l l' -> vsum l = vsum l'.
Proof. induction 1; cbn [vsum]; lra. Qed.

(** Renumbering a batch renumbers its matrices. *)
Lemma row_sum_perm n A A' sigma i : Permutation sigma (seq 0 n) -> (forall i j, i < n -> j < n -> A' i j = A (nth i sigma 0) (nth j sigma 0)) -> i < n ->
  row_sum n A' i = row_sum n A (nth i sigma 0).
Proof.
  intros P H Hi. unfold row_sum. assert (L : length sigma = n) by (rewrite (Permutation_length P), seq_length; reflexivity).
  replace (map (A' i) (seq 0 n)) with (map (A (nth i sigma 0)) sigma).
  - apply vsum_perm. apply Permutation_map. exact P.
  - apply (nth_ext _ _ 0%R 0%R); [rewrite !map_length, seq_length; exact L|]. intros j Hj. rewrite map_length in Hj.
    rewrite (nth_indep _ 0%R (A (nth i sigma 0) 0)) by (rewrite map_length; exact Hj). rewrite map_nth.
    rewrite (nth_indep _ 0%R (A' i 0)) by (rewrite map_length, seq_length; lia). rewrite map_nth, seq_nth by lia. symmetry. apply H; lia.
Qed.

Lemma sigma_inj n sigma i j : Permutation sigma (seq 0 n) -> i < n -> j < n -> nth i sigma 0 = nth j sigma 0 -> i = j.
Proof.
  intros P Hi Hj E. assert (L : length sigma = n) by (rewrite (Permutation_length P), seq_length; reflexivity).
  eapply (proj1 (NoDup_nth sigma 0)); try (rewrite L; assumption); [|exact E]. eapply Permutation_NoDup; [apply Permutation_sym; exact P | apply seq_NoDup].
Qed.
Lemma sigma_lt n sigma i : Permutation sigma (seq 0 n) -> i < n -> nth i sigma 0 < n.
Proof.
  intros P Hi. assert (L : length sigma = n) by (rewrite (Permutation_length P), seq_length; reflexivity).
  assert (I : In (nth i sigma 0) (seq 0 n)) by (apply (Permutation_in _ P), nth_In; lia). apply in_seq in I. lia.
Qed.

Lemma existsb_perm n sigma (f g : nat -> bool) : Permutation sigma (seq 0 n) -> (forall i, i < n -> f i = g (nth i sigma 0)) ->
  existsb f (seq 0 n) = existsb g (seq 0 n).
Proof.
  intros P H. assert (L : length sigma = n) by (rewrite (Permutation_length P), seq_length; reflexivity).
  destruct (existsb g (seq 0 n)) eqn:E.
  - apply existsb_exists in E. destruct E as (k & Ik & Gk). apply (Permutation_in _ (Permutation_sym P)) in Ik.
    apply In_nth with (d := 0) in Ik. destruct Ik as (i & Hi & <-). apply existsb_exists. exists i. split; [apply in_seq; lia|]. rewrite H by lia. exact Gk.
  - destruct (existsb f (seq 0 n)) eqn:F; [|reflexivity]. apply existsb_exists in F. destruct F as (i & Ii & Fi). apply in_seq in Ii.
    rewrite H in Fi by lia. assert (X : existsb g (seq 0 n) = true); [|congruence]. apply existsb_exists. exists (nth i sigma 0). split; [|exact Fi].
    apply in_seq. pose proof (sigma_lt n sigma i P ltac:(lia)). lia.
Qed.

Lemma lap_perm l n A A' sigma : Permutation sigma (seq 0 n) -> (forall i j, i < n -> j < n -> A' i j = A (nth i sigma 0) (nth j sigma 0)) ->
  match laplacian l n A, laplacian l n A' with
  | Ok M, Ok M' => sv n M' = sv n M
  | Err e, Err e' => e = e'
  | _, _ => False
  end.
Proof.
  intros P H. pose proof (fun i => row_sum_perm n A A' sigma i P H) as RS.
  assert (E : forall i j, i < n -> j < n -> delta i j = delta (nth i sigma 0) (nth j sigma 0)).
  { intros i j Hi Hj. unfold delta. destruct (Nat.eqb_spec i j) as [->|N]; [rewrite Nat.eqb_refl; reflexivity|].
    destruct (Nat.eqb_spec (nth i sigma 0) (nth j sigma 0)) as [Q|Q]; [|reflexivity]. exfalso. apply N. eapply sigma_inj; eassumption. }
  destruct l; cbn [laplacian].
  - rewrite (existsb_perm n sigma (fun i => Reqb (row_sum n A' i + eps_lap) 0) (fun i => Reqb (row_sum n A i + eps_lap) 0) P)
      by (intros i Hi; rewrite RS by exact Hi; reflexivity).
    destruct (existsb _ _); [reflexivity|]. apply (proj2 SV n _ _ sigma P). intros i j Hi Hj. rewrite RS, H by assumption. reflexivity.
  - apply (proj2 SV n _ _ sigma P). intros i j Hi Hj. rewrite RS, H, E by assumption. reflexivity.
  - rewrite (existsb_perm n sigma (fun i => Rleb (row_sum n A' i + eps_lap) 0) (fun i => Rleb (row_sum n A i + eps_lap) 0) P)
      by (intros i Hi; rewrite RS by exact Hi; reflexivity).
    destruct (existsb _ _); [reflexivity|]. apply (proj2 SV n _ _ sigma P). intros i j Hi Hj. rewrite !RS, H, E by assumption. reflexivity.
  - reflexivity.
Qed.

(** The spectrum of a batch, and the loss in terms of the two spectra. *)
Definition spectrum (m : metric) (l : laplac) (s : list (list R)) : res (list R) :=
  a <- adj m s ;; p <- laplacian l (length s) a ;; Ok (sv (length s) p).
Lemma gda_spectrum m l s t : gda_loss sv m l s t =
  (u <- spectrum m l s ;; v <- spectrum m l t ;; d <- sub_broadcast u v ;; Ok (norm2 d)).
Proof.
  unfold gda_loss, spectrum. destruct m; cbn [adj bind]; try reflexivity;
  (destruct (laplacian l (length s) _) as [p|e]; cbn [bind]; [|reflexivity]);
  (destruct (laplacian l (length t) _) as [q|e]; cbn [bind]; reflexivity).
Qed.

Lemma perm_index {A} (d : A) l l' : Permutation l l' -> exists sigma, Permutation sigma (seq 0 (length l)) /\ l' = map (fun i => nth i l d) sigma.
Proof.
  intros P. apply Permutation_nth with (d := d) in P. destruct P as (L & f & Hf & Hi & E).
  exists (map f (seq 0 (length l))). split.
  - apply NoDup_Permutation_bis.
    + apply (NoDup_map_inv (fun x => x)). rewrite map_id.
      clear - Hf Hi. assert (G : forall k, k <= length l -> NoDup (map f (seq 0 k))).
      { induction k as [|k IH]; intros Hk; [constructor|]. rewrite seq_S, map_app. cbn [map].
        apply (Permutation_NoDup (l := f (0 + k) :: map f (seq 0 k))); [apply Permutation_cons_append|]. constructor; [|apply IH; lia].
        intros I. apply in_map_iff in I. destruct I as (j & Ej & Ij). apply in_seq in Ij. cbn [Nat.add] in *.
        assert (j = k) by (apply Hi; lia). lia. }
      apply G. lia.
    + rewrite map_length, !seq_length. lia.
    + intros k I. apply in_map_iff in I. destruct I as (j & <- & Ij). apply in_seq in Ij. apply in_seq. specialize (Hf j ltac:(lia)). lia.
  - apply (nth_ext _ _ d d); [rewrite !map_length, seq_length; exact L|]. intros n Hn. rewrite E by lia. rewrite map_map.
    pose proof (map_nth (fun x => nth (f x) l d) (seq 0 (length l)) 0 n) as M. cbn beta in M. rewrite seq_nth in M by lia.
    rewrite <- M at 1. apply nth_indep. rewrite map_length, seq_length. lia.
Qed.

Lemma spectrum_perm m l s s' : Permutation s s' -> spectrum m l s' = spectrum m l s.
Proof.
  intros P. pose proof (Permutation_length P) as L. destruct (perm_index [] s s' P) as (sigma & Ps & E).
  assert (Ls : length sigma = length s) by (rewrite (Permutation_length Ps), seq_length; reflexivity).
  assert (N : forall i, i < length s -> nth i s' [] = nth (nth i sigma 0) s []).
  { intros i Hi. rewrite E. rewrite (nth_indep _ [] (nth 0 s [])) by (rewrite map_length; lia). rewrite (map_nth (fun k => nth k s [])). reflexivity. }
  assert (G : forall m, match laplacian l (length s) (fun i j => adj_entry m (nth i s []) (nth j s [])), laplacian l (length s) (fun i j => adj_entry m (nth i s' []) (nth j s' [])) with
             | Ok M, Ok M' => sv (length s) M' = sv (length s) M | Err e, Err e' => e = e' | _, _ => False end).
  { intros m0. apply (lap_perm l (length s) _ _ sigma Ps). intros i j Hi Hj. rewrite !N by assumption. reflexivity. }
  unfold spectrum. rewrite <- L. specialize (G m).
  destruct m; cbn [adj bind]; try reflexivity;
  (destruct (laplacian l (length s) _) as [M|e]; destruct (laplacian l (length s) _) as [M'|e']; try contradiction; cbn [bind]; [rewrite G | subst]; reflexivity).
Qed.
Lemma spectrum_congruent m l s s' : m = MEuc \/ m = MGauss -> congruent s s' -> spectrum m l s' = spectrum m l s.
Proof.
  intros Hm [L C].
  assert (G : match laplacian l (length s) (fun i j => adj_entry m (nth i s []) (nth j s [])), laplacian l (length s) (fun i j => adj_entry m (nth i s' []) (nth j s' [])) with
             | Ok M, Ok M' => sv (length s) M' = sv (length s) M | Err e, Err e' => e = e' | _, _ => False end).
  { apply (lap_perm l (length s) _ _ (seq 0 (length s))); [apply Permutation_refl|]. intros i j Hi Hj. rewrite !seq_nth by assumption. cbn [Nat.add].
    destruct Hm as [->| ->]; cbn [adj_entry]; rewrite C by assumption; reflexivity. }
  unfold spectrum. rewrite <- L.
  destruct Hm as [->| ->]; cbn [adj bind];
  (destruct (laplacian l (length s) _) as [M|e]; destruct (laplacian l (length s) _) as [M'|e']; try contradiction; cbn [bind]; [rewrite G | subst]; reflexivity).
Qed.

(** C141. The loss is not negative. *)
Theorem C141_nonneg : forall m l s t r, gda_loss sv m l s t = Ok r -> (0 <= r)%R.
Proof.
  intros m l s t r E. rewrite gda_spectrum in E.
  destruct (spectrum m l s) as [u|]; [|discriminate]; destruct (spectrum m l t) as [v|]; [|discriminate]; cbn [bind] in *;
  (destruct (sub_broadcast u v) as [d|]; [|discriminate]); injection E as <-; apply sqrt_pos.
Qed.
Lemma sub_swap u v d : sub_broadcast u v = Ok d -> exists d', sub_broadcast v u = Ok d' /\ norm2 d' = norm2 d.
Proof.
  assert (G : forall f g : list R, length f = length g -> (forall i, i < length f -> nth i f 0%R = (- nth i g 0)%R) -> norm2 f = norm2 g).
  { intros f g L H. unfold norm2. f_equal. unfold dot. f_equal. apply (nth_ext _ _ 0%R 0%R).
    - clear H. revert g L. induction f as [|a f IH]; intros [|b g] L; try discriminate; [reflexivity|]. cbn [map2 length]. f_equal. apply IH. now injection L.
    - revert g L H. induction f as [|a f IH]; intros [|b g] L H; try discriminate; intros i Hi; [reflexivity|].
      cbn [map2 length] in *. destruct i as [|i]; cbn [nth].
      + specialize (H 0 ltac:(lia)). cbn in H. rewrite H. ring.
      + apply IH; [now injection L | intros k Hk; exact (H (S k) ltac:(lia)) | lia]. }
  unfold sub_broadcast. rewrite (Nat.eqb_sym (length v) (length u)). destruct (Nat.eqb_spec (length u) (length v)) as [L|L].
  - intros [= <-]. eexists. split; [reflexivity|]. 
    assert (ML : forall a b : list R, length a = length b -> length (map2 Rminus a b) = length a).
    { induction a as [|x a IH]; intros [|y b] Q; try discriminate; [reflexivity|]. cbn. f_equal. apply IH. now injection Q. }
    apply G; [rewrite !ML; auto|]. rewrite ML by auto. intros i Hi. clear - L Hi.
    revert u v L Hi. induction i as [|i IH]; intros [|a u] [|b v] L Hi; try discriminate; cbn [length] in *; try lia; cbn [map2 nth]; [ring|]. apply IH; [now injection L|lia].
  - destruct u as [|a [|a' u]], v as [|b [|b' v]]; cbn [length] in L; try lia; intros E; try discriminate; injection E as <-; eexists; (split; [reflexivity|]);
    first [reflexivity | (apply G; [cbn [map length]; rewrite ?map_length; reflexivity|]; intros i Hi; cbn [map length] in Hi; rewrite map_length in Hi;
       destruct i as [|[|i]]; cbn [nth map]; [ring | ring |]; rewrite !nth_map0 by lia; ring)].
Qed.
Theorem C141_symmetric : forall m l s t r, gda_loss sv m l s t = Ok r -> gda_loss sv m l t s = Ok r.
Proof.
  intros m l s t r. rewrite !gda_spectrum.
  destruct (spectrum m l s) as [u|]; [|discriminate]; destruct (spectrum m l t) as [v|]; [|discriminate]; cbn [bind] in *;
  (destruct (sub_broadcast u v) as [d|] eqn:Q; [|discriminate]); intros [= <-]; destruct (sub_swap u v d Q) as (d' & -> & N); cbn [bind]; rewrite N; reflexivity.
Qed.
(** It does not depend on the order of the samples in either batch. *)
Theorem C141_order : forall m l s s' t t', Permutation s s' -> Permutation t t' -> gda_loss sv m l s' t' = gda_loss sv m l s t.
Proof.
  intros m l s s' t t' P Q. rewrite !gda_spectrum. rewrite (spectrum_perm m l s s' P), (spectrum_perm m l t t' Q). reflexivity.
Qed.
(** With distances or the Gaussian kernel it does not change under rigid motions of either batch, and it is zero on a moved copy. *)
Theorem C141_rigid : forall m l s s' t t', m = MEuc \/ m = MGauss -> congruent s s' -> congruent t t' -> gda_loss sv m l s' t' = gda_loss sv m l s t.
Proof.
  intros m l s s' t t' Hm P Q. rewrite !gda_spectrum. rewrite (spectrum_congruent m l s s' Hm P), (spectrum_congruent m l t t' Hm Q). reflexivity.
Qed.
Lemma norm2_self u : norm2 (map2 Rminus u u) = 0%R.
Proof.
  unfold norm2. replace (dot (map2 Rminus u u) (map2 Rminus u u)) with 0%R; [apply sqrt_0|]. unfold dot. induction u as [|a u IH]; [reflexivity|].
  cbn [map2 vsum]. rewrite <- IH. ring.
Qed.
Theorem C141_zero : forall m l s s' r, gda_loss sv m l s s' = Ok r -> Permutation s s' \/ ((m = MEuc \/ m = MGauss) /\ congruent s s') -> r = 0%R.
Proof.
  intros m l s s' r E H. rewrite gda_spectrum in E.
  assert (Q : spectrum m l s' = spectrum m l s) by (destruct H as [P|[Hm C]]; [apply spectrum_perm; exact P | apply spectrum_congruent; assumption]).
  rewrite Q in E. assert (G : forall u, (d <- sub_broadcast u u ;; Ok (norm2 d)) = Ok r -> r = 0%R).
  { intros u. unfold sub_broadcast. rewrite Nat.eqb_refl. cbn [bind]. rewrite norm2_self. intros [= <-]. reflexivity. }
  destruct (spectrum m l s) as [u|]; [|discriminate]. cbn [bind] in E. apply (G u); exact E.
Qed.
(** With distances or the Gaussian kernel and batches of the same size there is always a value; other sizes (greater than 1) and names are refused. *)
Lemma adj_nonneg m x y : m = MEuc \/ m = MGauss -> (0 <= adj_entry m x y)%R.
Proof. intros [->| ->]; cbn [adj_entry]; [apply sqrt_pos | left; apply exp_pos]. Qed.
Lemma spectrum_defined m l s : m = MEuc \/ m = MGauss -> l <> LapOther -> exists u, spectrum m l s = Ok u /\ length u = length s.
Proof.
  intros Hm Hl. unfold spectrum.
  assert (Ea : adj m s = Ok (fun i j => adj_entry m (nth i s []) (nth j s []))) by (destruct Hm as [->| ->]; reflexivity).
  rewrite Ea. cbn [bind]. set (A := fun i j => adj_entry m (nth i s []) (nth j s [])).
  assert (P : forall i, (0 < row_sum (length s) A i + eps_lap)%R).
  { intros i. assert (0 <= row_sum (length s) A i)%R.
    { unfold row_sum. generalize (seq 0 (length s)). induction l0 as [|k l0 IH]; [cbn; lra|]. cbn [map vsum]. pose proof (adj_nonneg m (nth i s []) (nth k s []) Hm). unfold A at 1. lra. }
    unfold eps_lap. lra. }
  assert (F1 : existsb (fun i => Reqb (row_sum (length s) A i + eps_lap) 0) (seq 0 (length s)) = false).
  { apply Bool.not_true_iff_false. intros E. apply existsb_exists in E. destruct E as (i & _ & E). apply Reqb_iff in E. specialize (P i). lra. }
  assert (F2 : existsb (fun i => Rleb (row_sum (length s) A i + eps_lap) 0) (seq 0 (length s)) = false).
  { apply Bool.not_true_iff_false. intros E. apply existsb_exists in E. destruct E as (i & _ & E). apply Rleb_iff in E. specialize (P i). lra. }
  destruct l; cbn [laplacian]; rewrite ?F1, ?F2; try congruence; eexists; (split; [reflexivity|]); apply (proj1 SV).
Qed.
Theorem C141_defined : forall m l s t, m = MEuc \/ m = MGauss -> l <> LapOther -> length s = length t -> exists r, gda_loss sv m l s t = Ok r.
Proof.
  intros m l s t Hm Hl L. destruct (spectrum_defined m l s Hm Hl) as (u & Eu & Lu). destruct (spectrum_defined m l t Hm Hl) as (v & Ev & Lv).
  rewrite gda_spectrum, Eu, Ev. cbn [bind]. unfold sub_broadcast. rewrite Lu, Lv, L, Nat.eqb_refl. cbn [bind]. destruct Hm as [->| ->]; eexists; reflexivity.
Qed.
Theorem C141_refused : forall m l s t, (m = MOther -> gda_loss sv m l s t = Err ValueError) /\
  (m = MEuc \/ m = MGauss -> l = LapOther -> gda_loss sv m l s t = Err ValueError) /\
  (m = MEuc \/ m = MGauss -> l <> LapOther -> length s <> length t -> 1 < length s -> 1 < length t -> gda_loss sv m l s t = Err RuntimeError).
Proof.
  intros m l s t. split; [|split].
  - intros ->. reflexivity.
  - intros [->| ->] ->; reflexivity.
  - intros Hm Hl N Ls Lt. destruct (spectrum_defined m l s Hm Hl) as (u & Eu & Lu). destruct (spectrum_defined m l t Hm Hl) as (v & Ev & Lv).
    rewrite gda_spectrum, Eu, Ev. cbn [bind]. unfold sub_broadcast. rewrite Lu, Lv. destruct (Nat.eqb_spec (length s) (length t)); [contradiction|].
    destruct u as [|a [|a' u]]; cbn [length] in Lu; try lia. destruct v as [|b [|b' v]]; cbn [length] in Lv; try lia. destruct Hm as [->| ->]; reflexivity.
Qed.

Lemma dot_self_nonneg x : (0 <= dot x x)%R.
Proof. induction x as [|a x IH]; [cbn; lra|]. rewrite dot_cons. nra. Qed.
(** The value: the distance between the singular values of the Laplacians of the two graphs. *)
Lemma sq_dist_dot x : forall y, length x = length y -> sq_dist x y = dot (vsub x y) (vsub x y).
Proof.
  unfold sq_dist. induction x as [|a x IH]; intros [|b y] L; try discriminate; [reflexivity|]. injection L as L. cbn [combine map fst snd vsum].
  rewrite (IH y L). unfold vsub. cbn [map2]. rewrite dot_cons. cbn [pow]. ring.
Qed.
Lemma sq_len_dot x : sq_len x = dot x x.
Proof. unfold sq_len. induction x as [|a x IH]; [reflexivity|]. cbn [map vsum]. rewrite IH, dot_cons. cbn [pow]. ring. Qed.
Lemma adj_gauss x y : length x = length y -> adj_entry MGauss x y = gaussian x y.
Proof.
  intros L. cbn [adj_entry]. unfold gaussian, euclid, norm2. rewrite sqrt_sqrt by apply dot_self_nonneg. rewrite sq_dist_dot by exact L. f_equal. field.
Qed.
Lemma adj_euc x y : length x = length y -> adj_entry MEuc x y = distance x y.
Proof. intros L. cbn [adj_entry]. unfold euclid, norm2, distance. rewrite sq_dist_dot by exact L. reflexivity. Qed.
Lemma adj_cos x y : long x -> long y -> adj_entry MCos x y = cosine x y.
Proof.
  intros Hx Hy. cbn [adj_entry]. unfold cosine, long, norm2 in *. rewrite sq_len_dot in Hx, Hy. rewrite !sq_len_dot. unfold f_normalize, norm2.
  rewrite (Rmax_left (sqrt (dot x x))) by lra. rewrite (Rmax_left (sqrt (dot y y))) by lra.
  assert (0 < 1 / 10 ^ 12)%R by lra. set (p := sqrt (dot x x)) in *. set (q := sqrt (dot y y)) in *.
  assert (S : forall c z, map (fun a => a / c)%R z = vscale (/ c) z) by (intros c z; unfold vscale; apply map_ext; intros a; unfold Rdiv; ring).
  rewrite !S, dot_scale_l, dot_scale_r. field. lra.
Qed.
Definition kernel_of (m : metric) : list R -> list R -> R := match m with MCos => cosine | MGauss => gaussian | _ => distance end.
Definition matrix_of (l : laplac) : nat -> (nat -> nat -> R) -> nat -> nat -> R :=
  match l with Lap1 => walk | Lap2 => unnormalised | _ => normalised end.
Definition proper (m : metric) (s : list (list R)) : Prop :=
  (forall i j, i < length s -> j < length s -> length (nth i s []) = length (nth j s [])) /\ (m = MCos -> Forall long s).
Lemma spectrum_value m l s u : m <> MOther -> proper m s -> spectrum m l s = Ok u ->
  u = sv (length s) (matrix_of l (length s) (weights_between (kernel_of m) s)).
Proof.
  intros Hm [W G] E. unfold spectrum in E.
  assert (Ea : adj m s = Ok (fun i j => adj_entry m (nth i s []) (nth j s []))) by (destruct m; try reflexivity; congruence).
  rewrite Ea in E. cbn [bind] in E. set (A := fun i j => adj_entry m (nth i s []) (nth j s [])) in *.
  set (K := weights_between (kernel_of m) s).
  assert (EA : forall i j, i < length s -> j < length s -> A i j = K i j).
  { intros i j Hi Hj. unfold A, K, weights_between. destruct m; cbn [kernel_of].
    - specialize (G eq_refl). rewrite Forall_forall in G. apply adj_cos; apply G, nth_In; assumption.
    - apply adj_gauss, W; assumption.
    - apply adj_euc, W; assumption.
    - congruence. }
  assert (ED : forall i, i < length s -> row_sum (length s) A i = degree (length s) K i).
  { intros i Hi. unfold row_sum, degree. f_equal. apply map_ext_in. intros j Ij. apply in_seq in Ij. apply EA; lia. }
  destruct l; cbn [laplacian matrix_of] in *.
  - destruct (existsb _ _) eqn:X; [discriminate|]. cbn [bind] in E. injection E as <-. apply sv_ext. intros i j Hi Hj.
    unfold walk. rewrite EA, ED by assumption. unfold eps_lap, Rdiv. ring.
  - cbn [bind] in E. injection E as <-. apply sv_ext. intros i j Hi Hj. unfold unnormalised, delta. rewrite EA, ED by assumption. destruct (i =? j); ring.
  - destruct (existsb _ _) eqn:X; [discriminate|]. cbn [bind] in E. injection E as <-. apply sv_ext. intros i j Hi Hj.
    assert (P : forall k, k < length s -> (0 < degree (length s) K k + 1 / 10 ^ 7)%R).
    { intros k Hk. rewrite <- (ED k Hk). destruct (Rlt_le_dec 0 (row_sum (length s) A k + eps_lap)) as [Q|Q]; [exact Q|]. exfalso.
      assert (Y : existsb (fun i => Rleb (row_sum (length s) A i + eps_lap) 0) (seq 0 (length s)) = true); [|congruence].
      apply existsb_exists. exists k. split; [apply in_seq; lia | apply Rleb_iff; exact Q]. }
    unfold normalised, delta. rewrite EA, !ED by assumption. unfold eps_lap. pose proof (sqrt_lt_R0 _ (P i Hi)). pose proof (sqrt_lt_R0 _ (P j Hj)).
    destruct (i =? j); field; lra.
  - discriminate.
Qed.
Theorem C141_value : forall m l s t r, m <> MOther -> length s = length t -> proper m s -> proper m t -> gda_loss sv m l s t = Ok r ->
  r = distance (sv (length s) (matrix_of l (length s) (weights_between (kernel_of m) s)))
               (sv (length t) (matrix_of l (length t) (weights_between (kernel_of m) t))).
Proof.
  intros m l s t r Hm L Ps Pt E. rewrite gda_spectrum in E.
  destruct (spectrum m l s) as [u|] eqn:Eu; [|discriminate]. destruct (spectrum m l t) as [v|] eqn:Ev; [|discriminate]. cbn [bind] in E.
  apply (spectrum_value m l s u Hm Ps) in Eu. apply (spectrum_value m l t v Hm Pt) in Ev. rewrite <- Eu, <- Ev.
  assert (Q : length u = length v) by (rewrite Eu, Ev, !(proj1 SV); exact L).
  unfold sub_broadcast in E. rewrite Q, Nat.eqb_refl in E. cbn [bind] in E. injection E as <-. unfold distance. rewrite sq_dist_dot by exact Q.
  reflexivity.
Qed.
(** With the cosine metric the lengths of the rows do not matter. *)
Theorem C141_cosine_scale : forall l s s' t, Forall long s -> Forall long s' -> Forall2 (fun x x' => exists c, (0 < c)%R /\ x' = vscale c x) s s' ->
  gda_loss sv MCos l s' t = gda_loss sv MCos l s t.
Proof.
  intros l s s' t Hs Hs' F. rewrite !gda_spectrum. assert (E : spectrum MCos l s' = spectrum MCos l s); [|rewrite E; reflexivity].
  assert (L : length s = length s') by (clear - F; induction F; cbn; congruence).
  assert (N : forall i, i < length s -> exists c, (0 < c)%R /\ nth i s' [] = vscale c (nth i s [])).
  { clear - F. induction F as [|x x' s s' H F IH]; intros i Hi; cbn [length] in Hi; [lia|]. destruct i as [|i]; [exact H|]. apply IH. lia. }
  rewrite Forall_forall in Hs, Hs'.
  assert (G : match laplacian l (length s) (fun i j => adj_entry MCos (nth i s []) (nth j s [])), laplacian l (length s) (fun i j => adj_entry MCos (nth i s' []) (nth j s' [])) with
             | Ok M, Ok M' => sv (length s) M' = sv (length s) M | Err e, Err e' => e = e' | _, _ => False end).
  { apply (lap_perm l (length s) _ _ (seq 0 (length s))); [apply Permutation_refl|]. intros i j Hi Hj. rewrite !seq_nth by assumption. cbn [Nat.add].
    destruct (N i Hi) as (c & Pc & Ec). destruct (N j Hj) as (d & Pd & Ed).
    rewrite (adj_cos (nth i s' [])), (adj_cos (nth i s [])) by (first [apply Hs', nth_In; lia | apply Hs, nth_In; lia]).
    assert (Li : long (nth i s [])) by (apply Hs, nth_In; lia). assert (Lj : long (nth j s [])) by (apply Hs, nth_In; lia).
    unfold cosine, long in *. rewrite sq_len_dot in Li, Lj. rewrite !sq_len_dot, Ec, Ed, !dot_scale_l, !dot_scale_r.
    assert (Sq : forall a z, (0 < a)%R -> sqrt (a * (a * dot z z)) = (a * sqrt (dot z z))%R).
    { intros a z Pa. rewrite <- Rmult_assoc. rewrite sqrt_mult; [|nra|apply dot_self_nonneg]. rewrite sqrt_square by lra. reflexivity. }
    rewrite !Sq by assumption. field. lra. }
  unfold spectrum. rewrite <- L. cbn [adj bind].
  destruct (laplacian l (length s) _) as [M|e]; destruct (laplacian l (length s) _) as [M'|e']; try contradiction; cbn [bind]; [rewrite G | subst]; reflexivity.
Qed.

(** C146. The SPA loss: with non-negative weights and a non-negative domain criterion and pseudo-label loss it is not negative; ... *)
Theorem C146_nonneg : forall crit nap a g p n N ds dt fs ft r, (forall u v c, crit u v = Ok c -> (0 <= c)%R) -> (forall v, nap = Ok v -> (0 <= v)%R) ->
  (0 <= a)%R -> (0 <= g)%R -> (0 <= p)%R -> spa_loss sv crit nap a g p n N ds dt fs ft = Ok r -> (0 <= r)%R.
Proof.
  intros crit nap a g p n N ds dt fs ft r Hc Hn Ha Hg Hp E. unfold spa_loss in E. destruct (Nat.eqb_spec N 0) as [|HN]; [discriminate|].
  destruct (dann_loss crit ds dt) as [d|] eqn:Ed; [|discriminate]. cbn [bind] in E.
  destruct (gda_loss sv MGauss Lap1 fs ft) as [q|] eqn:Eq; [|discriminate]. cbn [bind] in E. destruct nap as [v|]; [|discriminate]. injection E as <-.
  assert (Pd : (0 <= d)%R).
  { unfold dann_loss in Ed. destruct (crit ds _) as [c1|] eqn:E1; [|discriminate]. cbn [bind] in Ed. destruct (crit dt _) as [c2|] eqn:E2; [|discriminate]. injection Ed as <-.
    pose proof (Hc _ _ _ E1). pose proof (Hc _ _ _ E2). lra. }
  pose proof (C141_nonneg _ _ _ _ _ Eq) as Pq. pose proof (Hn v eq_refl) as Pv.
  assert (HN' : (0 < INR N)%R) by (apply lt_0_INR; lia).
  assert (S2 : (0 <= scheduler_nap n N)%R) by (unfold scheduler_nap; apply Rmult_le_pos; [apply pos_INR | left; apply Rinv_0_lt_compat; exact HN']).
  assert (S1 : (0 <= scheduler_adv n N)%R).
  { unfold scheduler_adv. assert (X0 : (exp (-10 * INR n / INR N) <= 1)%R).
    { rewrite <- exp_0. destruct (Req_dec (-10 * INR n / INR N) 0) as [->|Nz]; [lra|]. left. apply exp_increasing.
      assert ((-10 * INR n / INR N <= 0)%R); [|lra]. unfold Rdiv. rewrite Rmult_assoc. assert (0 <= INR n * / INR N)%R by (apply Rmult_le_pos; [apply pos_INR | left; apply Rinv_0_lt_compat; exact HN']). lra. }
    pose proof (exp_pos (-10 * INR n / INR N)) as X1. set (e := exp _) in *.
    assert ((1 <= 2 * (1 - 0) / (1 + e))%R); [|lra]. apply (Rmult_le_reg_r (1 + e)); [lra|]. unfold Rdiv. rewrite Rmult_assoc, Rinv_l by lra. lra. }
  apply Rplus_le_le_0_compat; [apply Rplus_le_le_0_compat|].
  - apply Rmult_le_pos; [apply Rmult_le_pos; assumption | exact Pd].
  - apply Rmult_le_pos; assumption.
  - apply Rmult_le_pos; [apply Rmult_le_pos; assumption | exact Pv].
Qed.
(** ... before the first epoch only the graph alignment counts, and a term whose weight is zero does not matter. *)
Theorem C146_start : forall crit nap a g p N ds dt fs ft r, spa_loss sv crit nap a g p 0 N ds dt fs ft = Ok r ->
  exists q, gda_loss sv MGauss Lap1 fs ft = Ok q /\ r = (g * q)%R.
Proof.
  intros crit nap a g p N ds dt fs ft r E. unfold spa_loss in E. destruct (Nat.eqb_spec N 0) as [|HN]; [discriminate|].
  destruct (dann_loss crit ds dt) as [d|]; [|discriminate]. cbn [bind] in E.
  destruct (gda_loss sv MGauss Lap1 fs ft) as [q|]; [|discriminate]. cbn [bind] in E. destruct nap as [v|]; [|discriminate]. injection E as <-.
  exists q. split; [reflexivity|]. unfold scheduler_adv, scheduler_nap. cbn [INR]. replace (-10 * 0 / INR N)%R with 0%R by (unfold Rdiv; ring). rewrite exp_0.
  replace (0 / INR N)%R with 0%R by (unfold Rdiv; ring). field.
Qed.
Theorem C146_terms : forall crit nap a g p n N ds dt fs ft r, spa_loss sv crit nap a g p n N ds dt fs ft = Ok r ->
  exists ls lt q v, crit ds (repeat 0%R (length ds)) = Ok ls /\ crit dt (repeat 1%R (length dt)) = Ok lt /\ gda_loss sv MGauss Lap1 fs ft = Ok q /\ nap = Ok v /\
    (r = a * (2 / (1 + exp (- (10 * INR n / INR N))) - 1) * (ls + lt) + g * q + p * (INR n / INR N) * v)%R.
Proof.
  intros crit nap a g p n N ds dt fs ft r E. unfold spa_loss in E. destruct (Nat.eqb_spec N 0) as [|HN]; [discriminate|].
  unfold dann_loss in E. destruct (crit ds _) as [ls|] eqn:E1; [|discriminate]. cbn [bind] in E. destruct (crit dt _) as [lt|] eqn:E2; [|discriminate]. cbn [bind] in E.
  destruct (gda_loss sv MGauss Lap1 fs ft) as [q|]; [|discriminate]. cbn [bind] in E. destruct nap as [v|]; [|discriminate]. injection E as <-.
  exists ls, lt, q, v. repeat (split; [assumption || reflexivity|]). unfold scheduler_adv, scheduler_nap.
  replace (-10 * INR n / INR N)%R with (- (10 * INR n / INR N))%R by (unfold Rdiv; ring). pose proof (exp_pos (- (10 * INR n / INR N))). field. split; [apply not_0_INR; exact HN | lra].
Qed.
End GDA.

(** Singular values of matrices of size 1 and of diagonal ones: a function meeting the contract (sorted absolute values of the diagonal) shows that it can be met. *)
Example C141_ex : exists sv, singular_values sv /\ gda_loss sv MEuc Lap2 [[0]; [0]]%R [[1]; [1]]%R = Ok 0%R.
Proof.
  exists (fun n M => repeat (vsum (map (fun i => M i i) (seq 0 n))) n). split; [split|].
  - intros. apply repeat_length.
  - intros n M M' sigma P H. f_equal. assert (L : length sigma = n) by (rewrite (Permutation_length P), seq_length; reflexivity).
    replace (map (fun i => M' i i) (seq 0 n)) with (map (fun k => M k k) sigma); [apply vsum_perm, Permutation_map; exact P|].
    apply (nth_ext _ _ 0%R 0%R); [rewrite !map_length, seq_length; exact L|]. intros j Hj. rewrite map_length in Hj.
    rewrite (nth_indep _ 0%R ((fun k => M k k) 0)) by (rewrite map_length; exact Hj). rewrite (map_nth (fun k => M k k)).
    rewrite (nth_indep _ 0%R ((fun k => M' k k) 0)) by (rewrite map_length, seq_length; lia). rewrite (map_nth (fun k => M' k k)), seq_nth by lia. symmetry. apply H; lia.
  - unfold gda_loss. cbn [adj laplacian bind length]. unfold sub_broadcast. rewrite !repeat_length. cbn [Nat.eqb bind]. f_equal.
    assert (Z : forall a b : R, euclid [a] [b] = sqrt ((a - b) * (a - b))) by (intros; unfold euclid, norm2, vsub, dot; cbn [map2 vsum]; f_equal; ring).
    cbn [repeat seq map vsum nth adj_entry row_sum delta Nat.eqb]. unfold row_sum. cbn [map seq vsum nth adj_entry]. rewrite !Z.
    replace (0 - 0)%R with 0%R by ring. replace (1 - 1)%R with 0%R by ring. rewrite Rmult_0_l, sqrt_0. unfold norm2, dot. cbn [map2 vsum].
    match goal with |- sqrt ?e = _ => replace e with 0%R by ring end. apply sqrt_0.
Qed.

(** ** C145 *)

(** The chain rule. *)
Lemma dot_split g d r t : length g = length d -> length g = length r -> dot g (map2 (fun a b => a * t + b)%R d r) = (dot g d * t + dot g r)%R.
Proof.
  revert d r. induction g as [|x g IH]; intros [|a d] [|b r] L1 L2; try discriminate; [cbn; ring|].
  unfold dot in *. cbn [map2 vsum]. rewrite IH by (cbn in *; lia). ring.
Qed.
Lemma dot_bound g r e : length g = length r -> Forall (fun a => Rabs a <= e)%R r -> (Rabs (dot g r) <= vsum (map Rabs g) * e)%R.
Proof.
  revert r. induction g as [|x g IH]; intros [|b r] L H; try discriminate; [cbn; rewrite Rabs_R0; lra|]. inversion H as [|? ? H1 H2]. subst.
  unfold dot in *. cbn [map2 vsum map]. eapply Rle_trans; [apply Rabs_triang|]. rewrite Rabs_mult. specialize (IH r ltac:(cbn in *; lia) H2).
  pose proof (Rabs_pos x). assert (Rabs x * Rabs b <= Rabs x * e)%R by (apply Rmult_le_compat_l; assumption). lra.
Qed.
Lemma vsum_abs_nonneg l : (0 <= vsum (map Rabs l))%R.
Proof. induction l as [|a l IH]; cbn [map vsum]; [lra|]. pose proof (Rabs_pos a). lra. Qed.

Definition at_point (fs : list (R -> R)) (t : R) : list R := map (fun f => f t) fs.
(** Derivatives of all the features with a common bound. *)
Lemma features_delta fs ds t : Forall2 (fun f d => derivable_pt_lim f t d) fs ds -> forall e, (0 < e)%R ->
  exists del, (0 < del)%R /\ forall h, h <> 0%R -> (Rabs h < del)%R ->
    Forall2 (fun f d => Rabs (f (t + h) - f t - d * h) <= e * Rabs h)%R fs ds.
Proof.
  induction 1 as [|f d fs ds Hf _ IH]; intros e He; [exists 1%R; split; [lra|]; intros; constructor|].
  destruct (IH e He) as (d1 & P1 & H1). destruct (Hf e He) as [d2 H2]. exists (Rmin d1 d2). split; [apply Rmin_pos; [exact P1 | apply cond_pos]|].
  intros h Nh Lh. constructor; [|apply H1; [exact Nh | eapply Rlt_le_trans; [exact Lh | apply Rmin_l]]].
  specialize (H2 h Nh ltac:(eapply Rlt_le_trans; [exact Lh | apply Rmin_r])).
  replace (f (t + h) - f t - d * h)%R with (((f (t + h) - f t) / h - d) * h)%R by (field; exact Nh). rewrite Rabs_mult.
  apply Rmult_le_compat_r; [apply Rabs_pos | lra].
Qed.

Theorem C145_chain : forall (l : list R -> R) fs ds t g, is_gradient l (at_point fs t) g -> Forall2 (fun f d => derivable_pt_lim f t d) fs ds ->
  derivable_pt_lim (fun t => l (at_point fs t)) t (dot g ds).
Proof.
  intros l fs ds t g [Lg G] Hd eps He.
  assert (Lfd : length fs = length ds) by (clear - Hd; induction Hd; cbn; auto).
  unfold at_point in Lg. rewrite map_length in Lg.
  set (Sg := vsum (map Rabs g)). set (Sd := vsum (map Rabs ds)). set (n := INR (length fs)).
  assert (PSg : (0 <= Sg)%R) by apply vsum_abs_nonneg. assert (PSd : (0 <= Sd)%R) by apply vsum_abs_nonneg. assert (Pn : (0 <= n)%R) by apply pos_INR.
  set (e1 := (eps / 3 / (Sg + 1))%R). assert (Pe1 : (0 < e1)%R) by (unfold e1; apply Rdiv_lt_0_compat; lra).
  set (e1' := Rmin e1 1). assert (Pe1' : (0 < e1')%R) by (apply Rmin_pos; lra).
  set (e2 := (eps / 3 / (Sd + n + 1))%R). assert (Pe2 : (0 < e2)%R) by (unfold e2; apply Rdiv_lt_0_compat; lra).
  destruct (G e2 Pe2) as (dg & Pdg & HG). destruct (features_delta fs ds t Hd e1' Pe1') as (dfs & Pdf & HF).
  assert (Pq : (0 < Sd + 1 + 1)%R) by lra.
  set (del := Rmin dfs (dg / (Sd + 1 + 1))). assert (Pdel : (0 < del)%R) by (apply Rmin_pos; [exact Pdf | apply Rdiv_lt_0_compat; assumption]).
  exists (mkposreal del Pdel). cbn [pos]. intros h Nh Lh.
  assert (Lh1 : (Rabs h < dfs)%R) by (eapply Rlt_le_trans; [exact Lh | apply Rmin_l]).
  assert (Lh2 : (Rabs h < dg / (Sd + 1 + 1))%R) by (eapply Rlt_le_trans; [exact Lh | apply Rmin_r]).
  assert (Ph : (0 < Rabs h)%R) by (apply Rabs_pos_lt; exact Nh).
  specialize (HF h Nh Lh1).
  (* the increments and the rests *)
  set (hs := map (fun f => f (t + h) - f t)%R fs). set (rs := map2 (fun f d => f (t + h) - f t - d * h)%R fs ds).
  assert (Lrs : length rs = length fs).
  { unfold rs. clear - Lfd. revert ds Lfd. induction fs as [|f fs IH]; intros [|d ds] L; try discriminate; [reflexivity|]. cbn. f_equal. apply IH. now injection L. }
  assert (Ehs : hs = map2 (fun a b => a * h + b)%R ds rs).
  { unfold hs, rs. clear - Lfd. revert ds Lfd. induction fs as [|f fs IH]; intros [|d ds] L; try discriminate; [reflexivity|]. cbn [map map2]. f_equal; [ring|]. apply IH. now injection L. }
  assert (Ez : at_point fs (t + h) = vadd (at_point fs t) hs).
  { unfold at_point, hs, vadd. clear. induction fs as [|f fs IH]; [reflexivity|]. cbn [map map2]. f_equal; [ring | exact IH]. }
  assert (Brs : Forall (fun a => Rabs a <= e1' * Rabs h)%R rs).
  { unfold rs. clear - HF. induction HF; cbn [map2]; constructor; assumption. }
  assert (Bds : forall d, In d ds -> (Rabs d <= Sd)%R).
  { unfold Sd. clear. induction ds as [|d ds IH]; intros x I; [destruct I|]. cbn [map vsum]. pose proof (vsum_abs_nonneg ds). pose proof (Rabs_pos d).
    destruct I as [<-|I]; [lra|]. specialize (IH x I). lra. }
  assert (Bhs : Forall (fun a => Rabs a < dg)%R hs).
  { rewrite Ehs. assert (Q : forall d r, (Rabs d <= Sd)%R -> (Rabs r <= e1' * Rabs h)%R -> (Rabs (d * h + r) < dg)%R).
    { intros d r Qd Qr. eapply Rle_lt_trans; [apply Rabs_triang|]. rewrite Rabs_mult.
      assert (Rabs d * Rabs h <= Sd * Rabs h)%R by (apply Rmult_le_compat_r; [apply Rabs_pos | exact Qd]).
      assert (e1' * Rabs h <= 1 * Rabs h)%R by (apply Rmult_le_compat_r; [apply Rabs_pos | apply Rmin_r]).
      assert ((Sd + 1 + 1) * Rabs h < dg)%R; [|lra]. apply (Rmult_lt_compat_l (Sd + 1 + 1)) in Lh2; [|exact Pq].
      replace ((Sd + 1 + 1) * (dg / (Sd + 1 + 1)))%R with dg in Lh2 by (field; lra). exact Lh2. }
    assert (L : length ds = length rs) by lia. clearbody rs Sd e1'. clear - Q Bds Brs L. revert rs Brs L. induction ds as [|d ds IH]; intros [|r rs] B L; try discriminate; cbn [map2]; constructor.
    - inversion B. apply Q; [apply Bds; left; reflexivity | assumption].
    - inversion B. apply IH; [intros; apply Bds; right; assumption | assumption | now injection L]. }
  assert (Lhs : length hs = length (at_point fs t)) by (unfold hs, at_point; rewrite !map_length; reflexivity).
  specialize (HG hs Lhs Bhs). rewrite <- Ez in HG.
  assert (Bsum : (vsum (map Rabs hs) <= (Sd + n) * Rabs h)%R).
  { rewrite Ehs. unfold Sd, n. rewrite <- Lrs. assert (Lr : length ds = length rs) by lia. clear - Brs Lr Pe1' Ph.
    assert (E1 : (e1' <= 1)%R) by apply Rmin_r. clearbody e1' rs. revert rs Brs Lr. induction ds as [|d ds IH]; intros [|r rs] B L; try discriminate; [cbn; lra|].
    inversion B as [|? ? B1 B2]. subst. cbn [map2 map vsum length]. rewrite S_INR. specialize (IH rs B2 ltac:(now injection L)).
    pose proof (Rabs_triang (d * h) r) as Q. rewrite Rabs_mult in Q. assert (e1' * Rabs h <= 1 * Rabs h)%R by (apply Rmult_le_compat_r; lra). lra. }
  assert (Edot : dot g hs = (dot g ds * h + dot g rs)%R) by (rewrite Ehs; apply dot_split; lia).
  assert (Brest : (Rabs (dot g rs) <= Sg * (e1' * Rabs h))%R) by (apply dot_bound; [lia | exact Brs]).
  replace ((l (at_point fs (t + h)) - l (at_point fs t)) / h - dot g ds)%R
    with (((l (at_point fs (t + h)) - l (at_point fs t) - dot g hs) + dot g rs) / h)%R by (rewrite Edot; field; exact Nh).
  unfold Rdiv. rewrite Rabs_mult, Rabs_inv. apply (Rmult_lt_reg_r (Rabs h)); [exact Ph|]. rewrite Rmult_assoc, Rinv_l by lra. rewrite Rmult_1_r.
  eapply Rle_lt_trans; [apply Rabs_triang|].
  assert (T1 : (e2 * vsum (map Rabs hs) <= e2 * ((Sd + n) * Rabs h))%R) by (apply Rmult_le_compat_l; lra).
  assert (T2 : (e2 * (Sd + n) <= eps / 3)%R).
  { unfold e2. apply (Rmult_le_reg_r (Sd + n + 1)); [lra|]. replace (eps / 3 / (Sd + n + 1) * (Sd + n) * (Sd + n + 1))%R with (eps / 3 * (Sd + n))%R by (field; lra).
    apply Rmult_le_compat_l; lra. }
  assert (T3 : (Sg * e1' <= eps / 3)%R).
  { assert (Sg * e1' <= Sg * e1)%R by (apply Rmult_le_compat_l; [exact PSg | apply Rmin_l]).
    assert (Sg * e1 <= eps / 3)%R; [|lra]. unfold e1. apply (Rmult_le_reg_r (Sg + 1)); [lra|]. replace (Sg * (eps / 3 / (Sg + 1)) * (Sg + 1))%R with (eps / 3 * Sg)%R by (field; lra).
    apply Rmult_le_compat_l; lra. }
  assert (T4 : (e2 * (Sd + n) * Rabs h <= eps / 3 * Rabs h)%R) by (apply Rmult_le_compat_r; lra).
  assert (T5 : (Sg * e1' * Rabs h <= eps / 3 * Rabs h)%R) by (apply Rmult_le_compat_r; lra).
  assert (T6 : (0 < eps * Rabs h)%R) by (apply Rmult_lt_0_compat; assumption). lra.
Qed.

(** What reaches a parameter of the feature extractor is the derivative of base - reg * alpha * domain loss: the features are trained to
    confuse the domain classifier, with strength reg * alpha. *)
Theorem C145_features : forall (domain_loss : list R -> R) (base : R -> R) fs ds db t gz reg alpha,
  is_gradient domain_loss (at_point fs t) gz -> Forall2 (fun f d => derivable_pt_lim f t d) fs ds -> derivable_pt_lim base t db ->
  derivable_pt_lim (fun t => base t - reg * alpha * domain_loss (at_point fs t))%R t (grad_features reg alpha db gz ds).
Proof.
  intros dl base fs ds db t gz reg alpha G Hd Hb.
  pose proof (C145_chain dl fs ds t gz G Hd) as C.
  assert (E : grad_features reg alpha db gz ds = (db - reg * alpha * dot gz ds)%R).
  { unfold grad_features. assert (L : length gz = length ds).
    { destruct G as [L _]. unfold at_point in L. rewrite map_length in L. rewrite L. clear - Hd. induction Hd; cbn; auto. }
    assert (Q : dot (grl_backward alpha (vscale reg gz)) ds = (- (reg * alpha) * dot gz ds)%R).
    { unfold grl_backward, vscale. rewrite map_map. clear - L. revert ds L. induction gz as [|g gz IH]; intros [|d ds] L; try discriminate; [cbn; ring|].
      unfold dot in *. cbn [map map2 vsum]. rewrite IH by (now injection L). ring. }
    rewrite Q. ring. }
  rewrite E. apply derivable_pt_lim_minus; [exact Hb|]. 
  pose proof (derivable_pt_lim_scal (fun t => dl (at_point fs t)) (reg * alpha) t _ C) as S1. exact S1.
Qed.
(** The domain classifier itself is trained to reduce reg * domain loss, whatever alpha. *)
Theorem C145_classifier : forall (domain_loss : R -> R) (base : R) dc t reg, derivable_pt_lim domain_loss t dc ->
  derivable_pt_lim (fun t => base + reg * domain_loss t)%R t (grad_classifier reg dc).
Proof.
  intros dl base dc t reg H. unfold grad_classifier. replace (reg * dc)%R with (0 + reg * dc)%R by ring.
  apply derivable_pt_lim_plus; [apply derivable_pt_lim_const | apply derivable_pt_lim_scal; exact H].
Qed.
(** The domain loss z1^2 + z2 at the features (t, 3 t), t = 2: its gradient is (4, 1). *)
Example C145_ex : is_gradient (fun z => (nth 0 z 0 * nth 0 z 0 + nth 1 z 0)%R) (at_point [(fun t => t); (fun t => 3 * t)%R] 2) [4; 1]%R /\
  Forall2 (fun f d => derivable_pt_lim f 2 d) [(fun t => t); (fun t => 3 * t)%R] [1; 3 * 1]%R /\ grad_features 2 1 0 [4; 1]%R [1; 3]%R = (-14)%R.
Proof.
  split; [split; [reflexivity|]|split].
  - intros eps He. exists eps. split; [exact He|]. intros h Lh Hh. destruct h as [|a [|b [|c h]]]; try discriminate. inversion Hh as [|? ? Ha Hh']. inversion Hh' as [|? ? Hb _]. subst.
    unfold at_point, vadd, dot. cbn [map map2 vsum nth].
    match goal with |- (Rabs ?e <= _)%R => replace e with (a * a)%R by ring end. rewrite Rabs_mult.
    assert (Rabs a * Rabs a <= eps * Rabs a)%R by (apply Rmult_le_compat_r; [apply Rabs_pos | lra]). pose proof (Rabs_pos b).
    assert (0 <= eps * Rabs b)%R by (apply Rmult_le_pos; lra). lra.
  - constructor; [apply derivable_pt_lim_id|]. constructor; [|constructor]. apply derivable_pt_lim_scal, derivable_pt_lim_id.
  - unfold grad_features, grl_backward, vscale, dot. cbn [map map2 vsum]. ring.
Qed.
Example C146_ex : exists sv, singular_values sv /\ exists r, spa_loss sv (fun u v => Ok 1%R) (Ok 2%R) 1 1 1 0 10 [1]%R [1]%R [[0]]%R [[0]]%R = Ok r /\ r = 0%R.
Proof.
  exists (fun n _ => repeat 0%R n). assert (S0 : singular_values (fun n _ => repeat 0%R n)) by (split; [intros; apply repeat_length | reflexivity]). split; [exact S0|].
  destruct (C141_defined _ S0 MGauss Lap1 [[0]]%R [[0]]%R) as [q Eq]; [right; reflexivity | discriminate | reflexivity|].
  assert (Zq : q = 0%R) by (eapply (C141_zero _ S0); [exact Eq | left; apply Permutation_refl]).
  eexists. split; [unfold spa_loss; rewrite Eq; reflexivity|]. rewrite Zq. unfold scheduler_adv, scheduler_nap. cbn [INR].
  replace (-10 * 0 / _)%R with 0%R by (unfold Rdiv; ring). rewrite exp_0. unfold Rdiv. field. 
Qed.
(** Batches meeting the hypotheses of C141_value and C141_cosine_scale. *)
Example C141_value_ex : proper MCos [[3; 4]; [1; 0]]%R /\ Forall long [[6; 8]; [3; 0]]%R /\
  Forall2 (fun x x' => exists c, (0 < c)%R /\ x' = vscale c x) [[3; 4]; [1; 0]]%R [[6; 8]; [3; 0]]%R /\ cosine [3; 4]%R [1; 0]%R = (3 / 5)%R.
Proof.
  assert (S : forall v q, (0 < q)%R -> sq_len v = (q * q)%R -> sqrt (sq_len v) = q) by (intros v q Hq ->; apply sqrt_square; lra).
  split; [split|split; [|split]].
  - intros [|[|i]] [|[|j]] Hi Hj; cbn in *; try lia; reflexivity.
  - intros _. repeat constructor; unfold long; [rewrite (S _ 5%R)|rewrite (S _ 1%R)]; try lra; cbn; ring.
  - repeat constructor; unfold long; [rewrite (S _ 10%R)|rewrite (S _ 3%R)]; try lra; cbn; ring.
  - repeat constructor; [exists 2%R|exists 3%R]; (split; [lra|]); cbn; repeat (f_equal; try lra).
  - unfold cosine. rewrite (S _ 5%R), (S _ 1%R) by (try lra; cbn; ring). cbn. field.
Qed.
