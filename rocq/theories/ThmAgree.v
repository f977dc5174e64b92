(** C199: the selectors agree where they overlap. *)
From Coq Require Import String List ZArith QArith Bool Arith Lia.
From Verif Require Import Np NpFacts Labels Spec SpecFacts UtilsModel UtilsSpec UtilsProofs SelectModel SelectSpec SelectProofs SelectProofs2.
Import ListNotations.
Local Open Scope nat_scope.
Local Open Scope list_scope.

(** ** Specification *)
(** The metadata a selector finds in what it is given: what earlier steps produced goes before what the caller passed. *)
Definition metadata {R} (c : @container R) (ps : params) : params := dict_update String.eqb ps (c_meta c).
(** A Python dict has no key twice. *)
Definition proper (ps : params) : Prop := NoDup (map fst ps).
(** Everything handed to the wrapped estimator has one entry per sample. *)
Definition one_per_sample {R} (n : nat) (k : @call R) : Prop :=
  length (k_X k) = n /\ (forall l, k_y k = Some l -> length l = n) /\
  Forall (fun kv => per_sample n (snd kv)) (k_params k).

(** ** Helpers *)
Lemma map_params_keys f ps ps' : map_params f ps = Ok ps' -> map fst ps' = map fst ps.
Proof.
  unfold map_params. revert ps'. induction ps as [|[k v] ps IH]; intros ps' H; cbn [mapM] in H; [now injection H as <-|].
  apply bind_ok in H as [kv [H1 H]]. cbn [fst snd] in H1. apply bind_ok in H1 as [v' [_ H1]]. injection H1 as <-. apply bind_ok in H as [r [H2 H]]. injection H as <-. cbn [map fst]. f_equal. auto.
Qed.
Lemma update_keys {V} (d e : dict string V) k : In k (map fst e) -> In k (map fst (dict_update String.eqb d e)).
Proof.
  intros H. destruct (dict_get String.eqb k (dict_update String.eqb d e)) as [v|] eqn:E.
  - apply (dict_get_In String.eqb string_eqb_spec) in E. apply in_map_iff. now exists (k, v).
  - rewrite (dict_get_update String.eqb string_eqb_spec) in E. destruct (dict_get String.eqb k (rev e)) eqn:G; [discriminate|].
    apply (dict_get_None String.eqb string_eqb_spec) in G. exfalso. apply G. rewrite map_rev. now rewrite <- in_rev.
Qed.
Lemma again (d e : params) : NoDup (map fst d) -> NoDup (map fst e) -> (forall k, In k (map fst e) -> In k (map fst d)) -> dict_update String.eqb d (dict_update String.eqb e d) = d.
Proof.
  intros N1 N2 Sub. apply dict_update_self. intros k v H.
  assert (G : dict_get String.eqb k (dict_update String.eqb e d) = Some v).
  { apply (dict_get_NoDup String.eqb string_eqb_spec); auto. now apply dict_update_NoDup. }
  rewrite (dict_get_update_NoDup e d k N1) in G. destruct (dict_get String.eqb k d) as [w|] eqn:E; [exact G|].
  exfalso. apply (dict_get_None String.eqb string_eqb_spec) in E. apply E. apply Sub. apply (dict_get_In String.eqb string_eqb_spec) in G. apply in_map_iff. now exists (k, v).
Qed.
Lemma domains_given {R} (X : list R) y ps sd sd' : get_sd ps = Some sd -> sst_domains X y ps = Ok sd' -> sd' = sd.
Proof.
  intros E H. unfold sst_domains in H. rewrite E in H. destruct y as [l|].
  - unfold check_X_y_domain in H. destruct (length X =? 0); [discriminate|]. destruct (length l =? 0); [discriminate|]. cbn [negb andb] in H.
    destruct (negb (length X =? length l)); [discriminate|]. cbn [bind] in H. apply bind_ok in H as [m [_ H]]. unfold all_flags, check_flags in H. cbn in H. now destruct (extract_source_indices sd); injection H.
  - unfold check_X_domain in H. destruct (length X =? 0); [discriminate|]. cbn [bind] in H. apply bind_ok in H as [m [_ H]].
    destruct (negb (length sd =? length X)); [discriminate|]. cbn in H. now injection H.
Qed.

(** ** SelectSourceTarget is SelectSource for its first and SelectTarget for its second estimator. *)
Lemma side_agrees {R} route tr (side : bool) (c : @container R) y ps sd m k :
  proper ps -> proper (c_meta c) -> get_sd (metadata c ps) = Some sd -> extract_source_indices sd = Ok m ->
  sst_side tr route (c_X c) (match c_labels c with Some l => Some l | None => y end) (metadata c ps) (if side then m else map negb m) = Ok k ->
  exists c', select_domain_fit route tr side false c y ps = Ok (c', k).
Proof.
  intros N1 N2 Hsd Hm H. unfold sst_side in H. destruct (count _ =? 0); [discriminate|]. apply bind_ok in H as [[[X2 y2] ps2] [Ha H]].
  unfold select_domain_fit, merge_out. fold (metadata c ps). rewrite Hsd, Hm. cbn [bind]. rewrite Ha. cbn [bind]. unfold shared_fit. cbn [bind merge_in merge_out c_X c_labels c_meta].
  assert (K : map fst ps2 = map fst (metadata c ps)).
  { unfold apply_domain_masks in Ha. apply bind_ok in Ha as [? [_ Ha]]. apply bind_ok in Ha as [? [_ Ha]]. apply bind_ok in Ha as [p [Hp Ha]]. injection Ha as <- <- <-. eapply map_params_keys; eauto. }
  assert (U : dict_update String.eqb ps2 (dict_update String.eqb (c_meta c) ps2) = ps2).
  { apply again; auto; rewrite K; [now apply dict_update_NoDup|]. intros x Hx. now apply update_keys. }
  apply bind_ok in H as [rp [Hr H]]. apply bind_ok in H as [[[X3 y3] rp3] [Hrm H]]. injection H as <-.
  assert (Y : match y2 with Some l => Some l | None => y2 end = y2) by now destruct y2.
  rewrite U, Y, Hr. cbn [bind]. rewrite Hrm. cbn [bind snd]. eauto.
Qed.
Theorem C199_source_target : forall (R : Type) route_s route_t tr (c : @container R) y ps sd a b,
  proper ps -> proper (c_meta c) -> get_sd (metadata c ps) = Some sd ->
  sst_fit route_s route_t tr c y ps = Ok (a, b) ->
  (exists c', select_domain_fit route_s tr true false c y ps = Ok (c', a)) /\ (exists c', select_domain_fit route_t tr false false c y ps = Ok (c', b)).
Proof.
  intros R route_s route_t tr c y ps sd a b N1 N2 Hsd H. unfold sst_fit, merge_out in H. fold (metadata c ps) in H.
  apply bind_ok in H as [sd' [H1 H]]. apply (domains_given _ _ _ _ _ Hsd) in H1. subst sd'.
  assert (E : dict_set String.eqb "sample_domain"%string (PDom sd) (metadata c ps) = metadata c ps).
  { apply dict_set_same. unfold get_sd, p_get in Hsd. destruct (dict_get String.eqb "sample_domain"%string (metadata c ps)) as [[]|]; try discriminate. now injection Hsd as ->. }
  rewrite E in H. apply bind_ok in H as [m [Hm H]]. apply bind_ok in H as [a' [Ha H]]. apply bind_ok in H as [b' [Hb H]]. injection H as <- <-.
  split; [eapply (side_agrees route_s tr true)|eapply (side_agrees route_t tr false)]; eauto.
Qed.

(** ** PerDomain on one domain is Shared. *)
Lemma all_idx (d : Z) sd : Forall (fun e => e = d) sd -> flatnonzero (map (fun x => (x =? d)%Z) sd) = seq 0 (length sd).
Proof.
  intros H. assert (E : map (fun x => (x =? d)%Z) sd = map (fun _ => true) sd). { apply map_ext_in. intros x Hx. rewrite (proj1 (Forall_forall _ _) H x Hx). apply Z.eqb_refl. }
  rewrite E. unfold flatnonzero. generalize 0 as i. clear. induction sd as [|x sd IH]; intros i; cbn; auto. now rewrite IH.
Qed.
Lemma unique_const (d : Z) sd : sd <> [] -> Forall (fun e => e = d) sd -> unique sd = [d].
Proof.
  intros NE H. assert (I : forall x, In x (unique sd) <-> x = d).
  { intros x. rewrite unique_In. split; [intros Hx; exact (proj1 (Forall_forall _ _) H x Hx)|]. intros ->. destruct sd as [|e sd]; [easy|]. inversion H. subst. now left. }
  pose proof (unique_NoDup sd) as ND. destruct (unique sd) as [|a [|b l]].
  - exfalso. apply (proj2 (I d) eq_refl).
  - f_equal. apply I. now left.
  - exfalso. inversion ND as [|? ? N _]. apply N. assert (a = d) by (apply I; now left). assert (b = d) by (apply I; right; now left). subst. now left.
Qed.
Lemma take_all {A} (l : list A) n : length l = n -> np_take (seq 0 n) l = Ok l.
Proof. intros <-. apply np_take_seq. Qed.
Theorem C199_one_domain : forall (R : Type) route tr mask (c : @container R) y ps sd d y1 k,
  get_sd (metadata c ps) = Some sd -> sd <> [] -> Forall (fun e => e = d) sd ->
  shared_fit route tr mask c y ps = Ok (y1, k) -> one_per_sample (length sd) k ->
  per_domain_fit route tr mask c y ps = Ok (y1, [(d, (seq 0 (length sd), k))]).
Proof.
  intros R route tr mask c y ps sd d y1 k Hsd NE HC H (LX & Ly & Lp). unfold shared_fit in H. unfold per_domain_fit.
  apply bind_ok in H as [y1' [H1 H]]. rewrite H1. cbn [bind]. unfold merge_out in *. fold (metadata c ps) in *. rewrite Hsd. cbn [bind].
  apply bind_ok in H as [rp [Hr H]]. rewrite Hr. cbn [bind]. apply bind_ok in H as [[[X3 y3] rp3] [Hm H]]. rewrite Hm. cbn [bind]. injection H as <- <-. cbn [k_X k_y k_params] in *.
  rewrite (unique_const d) by auto. cbn [mapM]. unfold domain_call. rewrite (all_idx d) by auto. rewrite (take_all X3) by auto. cbn [bind].
  assert (EY : opt_map (np_take (seq 0 (length sd))) y3 = Ok y3). { destruct y3 as [l|]; cbn; auto. rewrite take_all by auto. reflexivity. }
  rewrite EY. cbn [bind].
  assert (EP : map_params (pv_take (seq 0 (length sd))) rp3 = Ok rp3).
  { unfold map_params. clear - Lp. induction Lp as [|[q v] l Hv _ IH]; cbn [mapM]; auto. cbn [fst snd] in *.
    destruct v as [l'|l'|l'|z]; cbn [pv_take per_sample] in *; try contradiction; rewrite (take_all l') by auto; cbn [bind]; rewrite IH; reflexivity. }
  rewrite EP. reflexivity.
Qed.

(** ** SelectSource is Shared when there are only sources, and so is SelectTarget when there are only targets (no masking). *)
Lemma select_all {A} (l : list A) (m : list bool) : length m = length l -> forallb (fun b => b) m = true -> np_select m l = Ok l.
Proof.
  intros L H. unfold np_select. rewrite L, Nat.eqb_refl. f_equal. revert l L. induction m as [|b m IH]; intros [|x l] L; cbn in *; try easy.
  apply andb_true_iff in H as (-> & H). f_equal. apply IH; auto.
Qed.
Lemma fold_masks {R} (X : list R) y ps (m : list bool) :
  forallb (fun b => b) m = true -> length X = length m -> (forall l, y = Some l -> length l = length m) -> no_pylist (length m) ps -> apply_domain_masks X y ps m = Ok (X, y, ps).
Proof.
  intros Hm LX Ly NP. unfold apply_domain_masks. rewrite select_all by auto. cbn [bind].
  assert (EY : opt_map (np_select m) y = Ok y). { destruct y as [l|]; cbn; auto. rewrite select_all by (auto; symmetry; auto). reflexivity. }
  rewrite EY. cbn [bind].
  assert (EP : map_params (fun v => match pv_len v with Some k => if k =? length m then pv_select m v else Ok v | None => Ok v end) ps = Ok ps).
  { unfold map_params. induction ps as [|[q v] l IH]; cbn [mapM]; auto. cbn [fst snd].
    assert (E : match pv_len v with Some k => if k =? length m then pv_select m v else Ok v | None => Ok v end = Ok v).
    { destruct v as [l'|l'|l'|z]; cbn [pv_len pv_select]; auto; destruct (length l' =? length m) eqn:E; auto; apply Nat.eqb_eq in E.
      - rewrite select_all by auto. reflexivity.
      - rewrite select_all by auto. reflexivity.
      - exfalso. apply (NP q l'); auto. now left. }
    rewrite E. cbn [bind]. rewrite IH; [reflexivity|]. intros k' l' H. apply (NP k'). now right. }
  rewrite EP. reflexivity.
Qed.
(** What the wrapped estimator is called with. *)
Definition called {A B} (r : res (A * B)) : res B := match r with Ok (_, k) => Ok k | Err e => Err e end.
Theorem C199_one_side : forall (R : Type) route tr (side : bool) (c : @container R) y ps sd,
  proper ps -> proper (c_meta c) -> get_sd (metadata c ps) = Some sd -> sd <> [] ->
  Forall (fun d => if side then (0 <= d)%Z else (d < 0)%Z) sd ->
  length (c_X c) = length sd -> (forall l, c_labels c = Some l -> length l = length sd) -> (forall l, y = Some l -> length l = length sd) ->
  no_pylist (length sd) (metadata c ps) ->
  called (select_domain_fit route tr side false c y ps) = called (shared_fit route tr false c y ps).
Proof.
  intros R route tr side c y ps sd N1 N2 Hsd NE HC LX Lc Ly NP. unfold select_domain_fit, merge_out. fold (metadata c ps). rewrite Hsd. unfold extract_source_indices.
  destruct (length sd =? 0) eqn:E0; [apply Nat.eqb_eq in E0; now destruct sd|]. cbn [bind].
  set (fm := if side then source_mask sd else map negb (source_mask sd)).
  assert (Lm : length fm = length sd) by (unfold fm, source_mask; destruct side; now rewrite ?map_length).
  assert (Hm : forallb (fun b => b) fm = true).
  { apply forallb_forall. intros b Hb. unfold fm, source_mask in Hb. destruct side; [|rewrite map_map in Hb]; apply in_map_iff in Hb as (d & <- & Hd); pose proof (proj1 (Forall_forall _ _) HC d Hd); cbn beta iota in *.
    - now apply Z.leb_le. - apply negb_true_iff, Z.leb_gt. lia. }
  rewrite fold_masks; [|auto|rewrite Lm; auto| |now rewrite Lm].
  2:{ intros l. rewrite Lm. destruct (c_labels c) as [l0|]; intros E; [injection E as ->; now apply Lc|now apply Ly]. }
  cbn [bind]. unfold shared_fit. cbn [bind merge_in merge_out c_X c_labels c_meta]. fold (metadata c ps).
  assert (U : dict_update String.eqb (metadata c ps) (dict_update String.eqb (c_meta c) (metadata c ps)) = metadata c ps).
  { apply again; auto; [now apply dict_update_NoDup|]. intros x Hx. now apply update_keys. }
  rewrite U. set (y2 := match c_labels c with Some l => Some l | None => y end).
  assert (Y : match y2 with Some l => Some l | None => y2 end = y2) by now destruct y2. rewrite Y.
  destruct (route (metadata c ps)) as [rp|e]; [|reflexivity]. cbn [bind]. destruct (sel_remove_masked tr (c_X c) y2 rp) as [[[X3 y3] rp3]|e]; reflexivity.
Qed.

(** ** Example: three samples, two estimators asking for their sample weights. *)
Definition weights_only (ps : params) : res params := Ok (filter (fun kv => String.eqb (fst kv) "sample_weight"%string) ps).
Definition ps3 (sd : list Z) : params := [("sample_domain"%string, PDom sd); ("sample_weight"%string, PArr [VNum 1; VNum 2; VNum 3])].
Definition y3v : option (list val) := Some [VNum 1; VNum 0; VNum 1].
Example C199_ex :
  (exists c', select_domain_fit weights_only false true false (from_array [10; 20; 30]) y3v (ps3 [1; -2; 3]%Z)
              = Ok (c', mkCall [10; 30] (Some [VNum 1; VNum 1]) [("sample_weight"%string, PArr [VNum 1; VNum 3])])) /\
  sst_fit weights_only weights_only false (from_array [10; 20; 30]) y3v (ps3 [1; -2; 3]%Z)
  = Ok (mkCall [10; 30] (Some [VNum 1; VNum 1]) [("sample_weight"%string, PArr [VNum 1; VNum 3])], mkCall [20] (Some [VNum 0]) [("sample_weight"%string, PArr [VNum 2])]) /\
  per_domain_fit weights_only false true (from_array [10; 20; 30]) y3v (ps3 [4; 4; 4]%Z)
  = Ok (y3v, [(4%Z, ([0; 1; 2], mkCall [10; 20; 30] y3v [("sample_weight"%string, PArr [VNum 1; VNum 2; VNum 3])]))]) /\
  called (select_domain_fit weights_only false false false (from_array [10; 20; 30]) y3v (ps3 [-4; -4; -5]%Z)) = called (shared_fit weights_only false false (from_array [10; 20; 30]) y3v (ps3 [-4; -4; -5]%Z)) /\
  proper (ps3 [1; -2; 3]%Z).
Proof.
  split; [|split; [|split; [|split]]].
  - eapply (C199_source_target nat weights_only weights_only false (from_array [10; 20; 30]) y3v (ps3 [1; -2; 3]%Z) [1; -2; 3]%Z); [| |reflexivity|reflexivity]; unfold proper; cbn; repeat constructor; cbn; intuition discriminate.
  - reflexivity.
  - eapply (C199_one_domain nat weights_only false true (from_array [10; 20; 30]) y3v (ps3 [4; 4; 4]%Z) [4; 4; 4]%Z 4%Z); [reflexivity|discriminate|repeat constructor|reflexivity|].
    unfold one_per_sample. cbn [k_X k_y k_params length]. split; [reflexivity|split; [intros l [= <-]; reflexivity|]]. repeat constructor.
  - eapply (C199_one_side nat weights_only false false (from_array [10; 20; 30]) y3v (ps3 [-4; -4; -5]%Z) [-4; -4; -5]%Z); try reflexivity; try discriminate.
    + unfold proper; cbn; repeat constructor; cbn; intuition discriminate.
    + unfold proper. constructor.
    + repeat constructor.
    + intros l [= <-]. reflexivity.
    + intros k l [H|[H|[]]]; discriminate.
  - unfold proper; cbn; repeat constructor; cbn; intuition discriminate.
Qed.
