(** Theorems added after edited programs survived: the names of the domains of the two moons (C115) and SelectSourceTarget inside a pipeline (C18). *)
From Coq Require Import String List ZArith QArith Bool Arith Lia Reals Lra.
From Verif Require Import Np NpFacts PipeModel DataModel GenModel GenSpec ThmGen Labels Spec UtilsModel SelectModel SelectSpec ThmSelect ChainModel.
Import ListNotations.
Local Open Scope nat_scope.
Local Open Scope list_scope.

(** The domains of the two moons are called s and t, or s0, s1, ... and t0, t1, ... for several positions, in the order of the positions (C115). *)
Theorem C115_names : forall Gen normal cluster n_s n_t noise pos_s pos_t (g : Gen) ds sn tn, make_moons normal cluster n_s n_t noise pos_s pos_t g = Ok (ds, sn, tn) ->
  (forall p, pos_s = inl p -> sn = ["s"%string]) /\ (forall p, pos_t = inl p -> tn = ["t"%string]) /\
  (forall l, pos_s = inr l -> length sn = length l /\ forall i, i < length l -> nth_error sn i = Some (String.append "s" (string_of_nat i))) /\
  (forall l, pos_t = inr l -> length tn = length l /\ forall i, i < length l -> nth_error tn i = Some (String.append "t" (string_of_nat i))).
Proof.
  intros Gen normal cluster n_s n_t noise pos_s pos_t g ds sn tn E. unfold make_moons in E. destruct (moon_domains _ _ _ _ _ _ _ _) as [a|]; [|discriminate]. cbn [bind] in E. destruct (moon_domains _ _ _ _ _ _ _ _) as [b|]; [|discriminate].
  cbn [bind] in E. injection E as _ <- <-.
  assert (K : forall pre (l : list R), let names := map snd (map (fun ip : nat * R => (snd ip, String.append pre (string_of_nat (fst ip)))) (combine (seq 0 (length l)) l)) in
    length names = length l /\ forall i, i < length l -> nth_error names i = Some (String.append pre (string_of_nat i))).
  { intros pre l. cbv zeta. rewrite map_map, map_length, combine_length, seq_length, Nat.min_id. split; [reflexivity|]. intros i Hi. cbn [snd].
    assert (A : forall (l : list R) k i, i < length l -> nth_error (map (fun ip : nat * R => String.append pre (string_of_nat (fst ip))) (combine (seq k (length l)) l)) i = Some (String.append pre (string_of_nat (k + i)))).
    { clear. intros l. induction l as [|x l IH]; intros k i H; [cbn in H; lia|]. destruct i as [|i]; cbn; [now rewrite Nat.add_0_r|]. rewrite IH by (cbn in H; lia). do 3 f_equal. lia. }
    now apply (A l 0). }
  repeat split; intros; subst; try reflexivity; try (apply (K "s"%string)); try (apply (K "t"%string)); assumption.
Qed.
Example C115_names_ex : exists ds, make_moons toy_normal toy_cluster 1 1 (NReal (1 / 10)) (inl (1 / 4)%R) (inr [1 / 2; 3 / 4]%R) tt = Ok (ds, ["s"], ["t0"; "t1"])%string.
Proof.
  destruct (C115_layout toy_normal toy_cluster toy_normal_ok toy_cluster_ok 1 1 (NReal (1 / 10)) (inl (1 / 4)%R) (inr [1 / 2; 3 / 4]%R) tt) as (ds & sn & tn & X & E & _).
  - intros p [[<-|[]]|[<-|[<-|[]]]]; lra.
  - cbn. lia.
  - cbn. lra.
  - cbn. lra.
  - destruct (C115_names _ _ _ _ _ _ _ _ _ _ _ _ E) as (S & _ & _ & T). rewrite (S _ eq_refl) in E. destruct (T _ eq_refl) as (L & N).
    destruct tn as [|a [|b [|? ?]]]; try discriminate L. pose proof (N 0 ltac:(cbn; lia)) as N0. pose proof (N 1 ltac:(cbn; lia)) as N1. injection N0 as ->. injection N1 as ->. exists ds. exact E.
Qed.

(** In a pipeline, SelectSourceTarget gives the source estimator the sources with the parameters requested by it, the target estimator the targets with its own (C18). *)
Theorem C18_in_pipeline : forall (R : Type) route_s route_t tr run (X : list R) y ps sd rps rpt o,
  get_sd ps = Some sd -> length X = length sd -> (forall l, y = Some l -> length l = length sd) ->
  no_pylist (length sd) ps -> 0 < how_many is_source sd -> 0 < how_many is_target sd ->
  route_s (params_filter is_source sd ps) = Ok rps -> route_t (params_filter is_target sd ps) = Ok rpt ->
  (tr = true \/ y = None \/ (gets_domains rps /\ gets_domains rpt)) ->
  let ks := mkCall (rows_of is_source sd X) (option_map (rows_of is_source sd) y) rps in
  let kt := mkCall (rows_of is_target sd X) (option_map (rows_of is_target sd) y) rpt in
  run (ks, kt) = Ok o -> exists c, sel_step_fit (StBoth route_s route_t tr run) (from_array X) y ps = Ok ([ks; kt], y, c).
Proof.
  intros R route_s route_t tr run X y ps sd rps rpt o H1 H2 H3 H4 H5 H6 H7 H8 H9 ks kt H. cbn [sel_step_fit].
  rewrite (C18_fit_each_side R route_s route_t tr X y ps sd rps rpt) by assumption. cbn [bind]. fold ks kt. rewrite H. cbn [bind fst snd]. eexists. reflexivity.
Qed.
Example C18_in_pipeline_ex : exists c, sel_step_fit (StBoth (fun _ => Ok []) (fun p => Ok p) true (fun k => Ok (OArr (k_X (fst k))))) (from_array [10; 20; 30]) None (dom_params [-1; 4; -2]%Z) =
  Ok ([mkCall [20] None []; mkCall [10; 30] None (dom_params [-1; -2]%Z)], None, c).
Proof. eexists. reflexivity. Qed.
