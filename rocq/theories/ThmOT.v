(** Theorems C52-C55, C88-C93: optimal-transport estimators. *)
From Coq Require Import String List ZArith QArith Bool Arith Lia Reals Lra Sorted.
From Verif Require Import Np NpFacts Labels UtilsModel Spec SpecFacts UtilsSpec UtilsProofs UtilsProofs2 RVec RVecFacts
  ReweightProofs2 OTModel OTSpec OTProofs OTProofs2 OTProofs3 ThmFW.
Import ListNotations.
Local Open Scope nat_scope.
Local Open Scope list_scope.

(** C52 *)
Theorem C52_discrete_labels {Xrow} (plan : list Xrow -> list Xrow -> list R -> list R -> res (list (list R))) X y sw sd G :
  sd <> [] -> length X = length sd -> length y = length sd -> (forall w, sw = Some w -> length w = length sd) ->
  0 < how_many is_source sd ->
  plan (rows_of is_source sd X) (rows_of is_target sd X)
       (proportions (how_many is_source sd) (opt_rows is_source sd sw))
       (proportions (how_many is_target sd) (opt_rows is_target sd sw)) = Ok G ->
  length G = how_many is_source sd ->
  exists labels out, otlp_discrete plan X y sw sd = Ok out /\
    laid_out sd (repeat (-1)%Z (how_many is_source sd)) labels out /\ length labels = how_many is_target sd /\
    forall j, j < how_many is_target sd -> heaviest G (rows_of is_source sd y) j (nth j labels 0%Z).
Proof.
  intros Hsd HX Hy Hw Hs HG LG. unfold otlp_discrete. rewrite otlp_parts_ok by auto. cbn [bind]. rewrite HG. cbn [bind].
  set (ys := rows_of is_source sd y). rewrite rows_of_length by auto. set (nt := how_many is_target sd).
  assert (Lys : length ys = how_many is_source sd) by (unfold ys; now apply rows_of_length).
  assert (Hu : unique ys <> []).
  { intros E. apply (proj1 (unique_nil _)) in E. rewrite E in Lys. simpl in Lys. lia. }
  destruct (mapM_total np_argmax (class_mass G ys (unique ys) nt)) as [idx Eidx].
  { intros x Hx. unfold class_mass in Hx. apply in_map_iff in Hx as (j & <- & _). apply np_argmin_total.
    destruct (unique ys); [easy|discriminate]. }
  assert (Li : length idx = nt).
  { apply mapM_ok_length in Eidx. unfold class_mass in Eidx. now rewrite map_length, seq_length in Eidx. }
  rewrite Eidx. cbn [bind].
  assert (V : forall j, j < nt ->
    np_argmax (map (fun c => dot (col G j) (map (fun y0 => if (y0 =? c)%Z then 1%R else 0%R) ys)) (unique ys)) = Ok (nth j idx 0)).
  { intros j Hj. rewrite <- (mapM_nth np_argmax _ _ j [] 0 Eidx).
    - unfold class_mass. now rewrite nth_map_seq.
    - unfold class_mass. now rewrite map_length, seq_length. }
  assert (B : Forall (fun i => i < length (unique ys)) idx).
  { apply Forall_forall. intros i Hi. apply (In_nth _ _ 0) in Hi as (j & Hj & <-). rewrite Li in Hj.
    destruct (np_argmax_spec _ _ (V j Hj)) as [K _]. now rewrite map_length in K. }
  rewrite (np_take_ok _ _ 0%Z B). cbn [bind].
  destruct (setmask_laid_out sd (map (fun i => nth i (unique ys) 0%Z) idx) (-1)%Z (length y)) as (out & E & LO); auto.
  { now rewrite map_length, Li. }
  exists (map (fun i => nth i (unique ys) 0%Z) idx), out. split; [exact E|]. split; [exact LO|]. split; [now rewrite map_length|].
  intros j Hj. rewrite (nth_indep _ 0%Z ((fun i => nth i (unique ys) 0%Z) 0)) by (rewrite map_length; lia).
  rewrite (map_nth (fun i => nth i (unique ys) 0%Z)).
  apply (argmax_heaviest G ys j (nth j idx 0)); [congruence|now apply V|].
  apply nth_error_nth'. destruct (np_argmax_spec _ _ (V j Hj)) as [K _]. now rewrite map_length in K.
Qed.

Theorem C52_regression_labels {Xrow} (plan : list Xrow -> list Xrow -> list R -> list R -> res (list (list R))) X y sw sd G :
  sd <> [] -> length X = length sd -> length y = length sd -> (forall w, sw = Some w -> length w = length sd) ->
  let b := proportions (how_many is_target sd) (opt_rows is_target sd sw) in
  plan (rows_of is_source sd X) (rows_of is_target sd X) (proportions (how_many is_source sd) (opt_rows is_source sd sw)) b = Ok G ->
  length G = how_many is_source sd ->
  exists out, otlp_regression plan X y sw sd = Ok out /\
    laid_out sd (repeat None (how_many is_source sd)) (map (fun j => Some (moved_label G (rows_of is_source sd y) b j)) (seq 0 (how_many is_target sd))) out.
Proof.
  intros Hsd HX Hy Hw b HG LG. unfold otlp_regression. rewrite otlp_parts_ok by auto. cbn [bind]. fold b. rewrite HG. cbn [bind].
  assert (Lb : length b = how_many is_target sd).
  { unfold b. destruct sw as [w|]; cbn [opt_rows proportions].
    - rewrite map_length, rows_of_length; auto. symmetry. now apply Hw.
    - apply repeat_length. }
  rewrite transported_moved by (rewrite rows_of_length; congruence). rewrite map_map, Lb.
  apply setmask_laid_out; auto. now rewrite map_length, seq_length.
Qed.

(** Only the labels of the source samples matter. *)
Theorem C52_ignores_target_labels {Xrow} (plan : list Xrow -> list Xrow -> list R -> list R -> res (list (list R))) X y y' sw sd :
  sd <> [] -> length X = length sd -> length y = length sd -> length y' = length sd -> (forall w, sw = Some w -> length w = length sd) ->
  rows_of is_source sd y = rows_of is_source sd y' -> otlp_discrete plan X y sw sd = otlp_discrete plan X y' sw sd.
Proof.
  intros Hsd HX Hy Hy' Hw E. unfold otlp_discrete. rewrite !otlp_parts_ok by auto. rewrite E. cbn [bind]. now rewrite Hy, Hy'.
Qed.

(** Two sources of classes 7 and 3, a target in between: the plan sends 1/3 and 1/6 to the first target, 1/6 and 1/3 to the second. *)
Example C52_ex :
  exists out, otlp_discrete (fun (_ _ : list nat) _ _ => Ok [[1/3; 1/6]; [1/6; 1/3]]%R) [10; 20; 30; 40] [7; 0; 3; 0]%Z None [1; -2; 1; -2]%Z = Ok out /\
    out = [-1; 7; -1; 3]%Z.
Proof.
  destruct (C52_discrete_labels (fun (_ _ : list nat) _ _ => Ok [[1/3; 1/6]; [1/6; 1/3]]%R) [10; 20; 30; 40] [7; 0; 3; 0]%Z None [1; -2; 1; -2]%Z
     [[1/3; 1/6]; [1/6; 1/3]]%R) as (l & out & E & (L & S & T) & LL & H); try reflexivity; try discriminate; [cbn; lia|].
  exists out. split; [exact E|]. cbn in LL. destruct l as [|a [|b [|? ?]]]; try discriminate. destruct out as [|o0 [|o1 [|o2 [|o3 [|? ?]]]]]; try discriminate.
  cbn in S, T. injection S as -> ->. injection T as -> ->.
  destruct (H 0) as (Ia & Ma & _); [cbn; lia|]. destruct (H 1) as (Ib & Mb & _); [cbn; lia|]. cbn in Ia, Ib, Ma, Mb.
  specialize (Ma 7%Z (or_introl eq_refl)). specialize (Mb 3%Z (or_intror (or_introl eq_refl))).
  destruct Ia as [<-|[<-|[]]], Ib as [<-|[<-|[]]]; cbn in Ma, Mb; try lra. reflexivity.
Qed.
Example C52_reg_ex :
  exists out, otlp_regression (fun (_ _ : list nat) _ _ => Ok [[1/3; 1/6]; [1/6; 1/3]]%R) [10; 20; 30; 40] [6; 0; 3; 0]%R None [1; -2; 1; -2]%Z = Ok out /\
    out = [None; Some 5; None; Some 4]%R.
Proof.
  destruct (C52_regression_labels (fun (_ _ : list nat) _ _ => Ok [[1/3; 1/6]; [1/6; 1/3]]%R) [10; 20; 30; 40] [6; 0; 3; 0]%R None [1; -2; 1; -2]%Z
     [[1/3; 1/6]; [1/6; 1/3]]%R) as (out & E & (L & S & T)); try reflexivity; try discriminate.
  exists out. split; [exact E|]. destruct out as [|o0 [|o1 [|o2 [|o3 [|? ?]]]]]; try discriminate.
  cbn in S, T. injection S as -> ->. injection T as -> ->. unfold moved_label. cbn. repeat f_equal; lra.
Qed.

(** C53. What the adapter computes: the index of the best column, given to the target samples in sample order, for scores
    computed on the samples sorted by domain. *)
Lemma jcpot_ok {Xrow} (prop : list (list Xrow) -> list (list Z) -> list Xrow -> Xrow -> list R) X y sd :
  let labels Xs ys Xt := Ok (map (prop Xs ys Xt) Xt) in
  sd <> [] -> length X = length sd -> length y = length sd -> 0 < how_many is_target sd ->
  (forall Xs ys Xt x, prop Xs ys Xt x <> []) ->
  let sources {A} := fun (xs : list A) => domain_by_domain (filter is_source (unique sd)) sd xs in
  let twice {A} := fun l : list A => if length (filter is_source (unique sd)) =? 1 then l ++ l else l in
  let Xt := concat (domain_by_domain (filter is_target (unique sd)) sd X) in
  exists idx out, jcpot_fit_transform labels X y sd = Ok out /\
    laid_out sd (repeat (-1)%Z (how_many is_source sd)) (map Z.of_nat idx) out /\
    Forall2 (fun x k => np_argmax (prop (twice (sources X)) (twice (sources y)) Xt x) = Ok k) Xt idx.
Proof.
  intros labels Hsd HX Hy Ht Hne sources twice Xt. unfold jcpot_fit_transform.
  rewrite per_domain_ok; auto; [|discriminate|intros xs [[= <-]|[]]; auto]. cbn [bind].
  rewrite per_domain_ok; auto; [|discriminate|intros xs [[= <-]|[]]; auto]. cbn [bind fst snd].
  rewrite !values_domain. fold Xt. fold (sources _ X). fold (sources _ y).
  assert (length (domain_by_domain (filter is_target (unique sd)) sd X) =? 0 = false) as ->.
  { apply Nat.eqb_neq. intros E. apply length_zero_iff_nil in E. assert (L := domain_rows_count sd X (eq_sym HX)). rewrite E in L. simpl in L. lia. }
  assert (length (sources Z y) = length (filter is_source (unique sd))) as -> by (unfold sources, domain_by_domain; now rewrite map_length).
  unfold labels at 1. cbn [bind]. fold (twice _ (sources _ X)). fold (twice _ (sources _ y)).
  set (p := prop (twice _ (sources _ X)) (twice _ (sources _ y)) Xt).
  destruct (mapM_total np_argmax (map p Xt)) as [idx E].
  { intros r Hr. apply in_map_iff in Hr as (x & <- & _). apply np_argmin_total. unfold p. specialize (Hne (twice _ (sources _ X)) (twice _ (sources _ y)) Xt x).
    destruct (prop _ _ Xt x); [easy|discriminate]. }
  rewrite E. cbn [bind].
  assert (Li : length idx = how_many is_target sd).
  { apply mapM_ok_length in E. rewrite map_length in E. rewrite E. apply domain_rows_count. auto. }
  destruct (setmask_laid_out sd (map Z.of_nat idx) (-1)%Z (length y)) as (out & Eo & LO); auto.
  { now rewrite map_length. }
  exists idx, out. split; [exact Eo|]. split; [exact LO|].
  apply mapM_ok_iff in E. change (Forall2 (fun x k => np_argmax (p x) = Ok k) Xt idx). clearbody p. clear -E. revert idx E.
  induction Xt as [|x l IH]; intros idx E; inversion E; subst; constructor; auto.
Qed.

Lemma Forall2_map_r' {A B C} (P : A -> B -> Prop) (Q : A -> C -> Prop) (g : B -> C) l k :
  Forall2 P l k -> (forall x y, P x y -> Q x (g y)) -> Forall2 Q l (map g k).
Proof. intros F H. induction F; cbn [map]; constructor; auto. Qed.

(** The property holds when the target samples are sorted by domain label and the classes are 0, ..., K-1.
    Missing: any other order of the target samples, any other labels (refuted below). *)
Theorem C53_jcpot_labels_partial {Xrow} (prop : list (list Xrow) -> list (list Z) -> list Xrow -> Xrow -> list R) X y sd K :
  let labels Xs ys Xt := Ok (map (prop Xs ys Xt) Xt) in
  sd <> [] -> length X = length sd -> length y = length sd -> 0 < how_many is_target sd -> 0 < K ->
  (forall Xs ys Xt x, length (prop Xs ys Xt x) = K) ->
  StronglySorted Z.le (filter is_target sd) -> unique (rows_of is_source sd y) = map Z.of_nat (seq 0 K) ->
  let doms := filter is_source (unique sd) in
  let twice {A} := fun l : list A => if length doms =? 1 then l ++ l else l in
  let scores := prop (twice (domain_by_domain doms sd X)) (twice (domain_by_domain doms sd y)) (rows_of is_target sd X) in
  exists lab out, jcpot_fit_transform labels X y sd = Ok out /\
    laid_out sd (repeat (-1)%Z (how_many is_source sd)) lab out /\
    Forall2 (fun x c => best_class (scores x) (unique (rows_of is_source sd y)) c) (rows_of is_target sd X) lab.
Proof.
  intros labels Hsd HX Hy Ht HK HP Hs Hu doms twice scores.
  destruct (jcpot_ok prop X y sd) as (idx & out & E & LO & F); auto.
  { intros Xs ys Xt x H. specialize (HP Xs ys Xt x). rewrite H in HP. simpl in HP. lia. }
  cbv zeta in F. rewrite (sorted_targets_order sd X) in F by auto.
  exists (map Z.of_nat idx), out. split; [exact E|]. split; [exact LO|].
  rewrite Hu. eapply Forall2_map_r'; [exact F|]. intros x k H. cbv beta in H.
  apply np_argmax_spec in H as (H1 & H2 & H3). rewrite HP in *. exists k. unfold scores, twice, doms. rewrite HP.
  split; [|split; [exact H1|split; [exact H2|exact H3]]].
  rewrite nth_error_map. rewrite (nth_error_nth' _ 0) by (rewrite seq_length; lia). rewrite seq_nth by lia. reflexivity.
Qed.

(** In general the labels are column numbers of the scores computed on the samples sorted by domain. *)
Theorem C53_jcpot_columns {Xrow} (prop : list (list Xrow) -> list (list Z) -> list Xrow -> Xrow -> list R) X y sd :
  let labels Xs ys Xt := Ok (map (prop Xs ys Xt) Xt) in
  sd <> [] -> length X = length sd -> length y = length sd -> 0 < how_many is_target sd -> (forall Xs ys Xt x, prop Xs ys Xt x <> []) ->
  let doms := filter is_source (unique sd) in
  let twice {A} := fun l : list A => if length doms =? 1 then l ++ l else l in
  let Xt := concat (domain_by_domain (filter is_target (unique sd)) sd X) in
  let scores := prop (twice (domain_by_domain doms sd X)) (twice (domain_by_domain doms sd y)) Xt in
  exists lab out, jcpot_fit_transform labels X y sd = Ok out /\
    laid_out sd (repeat (-1)%Z (how_many is_source sd)) lab out /\
    Forall2 (fun x c => best_class (scores x) (map Z.of_nat (seq 0 (length (scores x)))) c) Xt lab.
Proof.
  intros labels Hsd HX Hy Ht HP doms twice Xt scores.
  destruct (jcpot_ok prop X y sd) as (idx & out & E & LO & F); auto. cbv zeta in F.
  exists (map Z.of_nat idx), out. split; [exact E|]. split; [exact LO|].
  eapply Forall2_map_r'; [exact F|]. intros x k H. cbv beta in H.
  change (np_argmax (scores x) = Ok k) in H.
  apply np_argmax_spec in H as (H1 & H2 & H3). exists k.
  split; [|split; [exact H1|split; [exact H2|exact H3]]].
  rewrite nth_error_map. rewrite (nth_error_nth' _ 0) by (now rewrite seq_length). rewrite seq_nth by auto. reflexivity.
Qed.

(** Witness 1: target domains -1 and -2 in this order. The first target sample (20) looks like class 0, the second (30) like
    class 1; the labels returned are exchanged. *)
Definition score_by_size (_ : list (list nat)) (_ : list (list Z)) (_ : list nat) (x : nat) : list R := if x <? 25 then [1; 0]%R else [0; 1]%R.
Theorem C53_target_order_refuted :
  let labels Xs ys Xt := Ok (map (score_by_size Xs ys Xt) Xt) in
  let X := [10; 40; 20; 30] in let y := [0; 1; -1; -1]%Z in let sd := [1; 1; -1; -2]%Z in
  jcpot_fit_transform labels X y sd = Ok [-1; -1; 1; 0]%Z /\
  best_class (score_by_size [] [] [] 20) (unique (rows_of is_source sd y)) 0 /\
  ~ best_class (score_by_size [] [] [] 20) (unique (rows_of is_source sd y)) 1.
Proof.
  cbv zeta. split; [|split].
  - unfold jcpot_fit_transform. cbn. unfold np_argmax, np_argmin, Rltb. cbn. repeat (destruct Rlt_dec; try lra). cbn. reflexivity.
  - exists 0. cbn. repeat split; try lia; [intros [|[|j]] Hj; cbn; try lra; lia].
  - intros (k & H1 & H2 & H3 & H4). cbn in *. destruct k as [|[|k]]; [discriminate| |lia]. specialize (H3 0). cbn in H3.
    assert (1 <= 0)%R by (apply H3; lia). lra.
Qed.

(** Witness 2: classes 5 and 7. The labels returned are 0 and 1, which are no class of the problem. *)
Theorem C53_label_values_refuted :
  let labels Xs ys Xt := Ok (map (score_by_size Xs ys Xt) Xt) in
  let X := [10; 40; 20; 30] in let y := [5; 7; -1; -1]%Z in let sd := [1; 1; -2; -2]%Z in
  jcpot_fit_transform labels X y sd = Ok [-1; -1; 0; 1]%Z /\
  (forall c, best_class (score_by_size [] [] [] 20) (unique (rows_of is_source sd y)) c -> c = 5%Z).
Proof.
  cbv zeta. split.
  - unfold jcpot_fit_transform. cbn. unfold np_argmax, np_argmin, Rltb. cbn. repeat (destruct Rlt_dec; try lra). cbn. reflexivity.
  - intros c (k & H1 & H2 & H3 & H4). cbn in *. destruct k as [|[|k]]; [cbn in H1; congruence| |lia]. specialize (H3 0). cbn in H3.
    assert (1 <= 0)%R by (apply H3; lia). lra.
Qed.
Example C53_ex :
  let labels Xs ys Xt := Ok (map (score_by_size Xs ys Xt) Xt) in
  exists lab out, jcpot_fit_transform labels [10; 20; 40; 30; 21] [0; -1; 1; -1; -1]%Z [1; -3; 2; -3; -1]%Z = Ok out /\
    laid_out [1; -3; 2; -3; -1]%Z [-1; -1]%Z lab out /\ length lab = 3.
Proof.
  destruct (C53_jcpot_labels_partial score_by_size [10; 20; 40; 30; 21] [0; -1; 1; -1; -1]%Z [1; -3; 2; -3; -1]%Z 2) as (lab & out & E & LO & F);
    try reflexivity; try discriminate; try (cbn; lia).
  - intros. unfold score_by_size. now destruct (x <? 25).
  - cbn. repeat constructor; lia.
  - exists lab, out. split; [exact E|]. split; [exact LO|]. apply F2_length in F. now rewrite <- F.
Qed.

(** C54 *)
Section C54.
  Context {Est : Type}.
  Variable solve : list (list R) -> list R -> list R -> res (list (list R) * R).
  Definition plans_fit : Prop := forall M a b T v, solve M a b = Ok (T, v) -> matrix (length a) (length b) T.

  Lemma marg_length n w : (forall l, w = Some l -> length l = n) -> length (proportions n w) = n.
  Proof. intros H. destruct w as [l|]; cbn [proportions]; [rewrite map_length; auto|apply repeat_length]. Qed.

Theorem C54_regression_run (fit : list R -> option (list R) -> res (Est * list R)) alpha tol n D ys nt ws wt est lot llab T w :
    plans_fit -> length D = length ys -> (forall l, ws = Some l -> length l = length ys) -> (forall l, wt = Some l -> length l = nt) -> 0 < n ->
    solve_jdot_regression solve fit alpha tol n D ys nt ws wt = Ok (est, lot, llab, T, w) ->
    stopping_rule tol n lot llab w /\
    exists Ts vs es yps,
      (forall j, j < length lot -> reg_iteration solve fit alpha D ys (proportions (length ys) ws) (proportions nt wt) wt
         (match j with 0 => None | S j' => Some (yps j') end) (Ts j) (vs j) (es j) (yps j) (nth j lot 0%R) (nth j llab 0%R)) /\
      est = es (length lot - 1) /\ T = Ts (length lot - 1).
  Proof.
    intros HP HD Hws Hwt Hn E. unfold solve_jdot_regression in E. rewrite !marginal_proportions in E.
    set (a := proportions (length ys) ws) in *. set (b := proportions nt wt) in *.
    assert (La : length a = length ys) by (unfold a; now apply marg_length).
    assert (Lb : length b = nt) by (unfold b; now apply marg_length).
    destruct (jdot_loop _ _ _ _ _ _ _ _) as [[[[s lo] ll] wa]|] eqn:El; [|discriminate]. cbn [bind] in E.
    destruct (snd s) as [[e T0]|] eqn:Es; [|discriminate]. injection E as <- <- <- <- <-.
    apply loop_stopping in El as [Tr SR]; auto. split; [exact SR|].
    assert (Hs : forall M T v, solve M a b = Ok (T, v) -> matrix (length ys) (length b) T) by (intros M T v H; rewrite <- La; eauto).
    destruct (reg_trace solve fit alpha D ys a b wt Hs HD e _ _ _ _ _ Tr None) as (Ts & vs & es & yps & I & F).
    - tauto.
    - cbn [fst prev_pred]. now rewrite Lb.
    - exists Ts, vs, es, yps. split; [exact I|]. destruct SR as (_ & L & _). rewrite Es in F. specialize (F ltac:(lia)). injection F as -> ->. auto.
  Qed.

Theorem C54_regression_succeeds (fit : list R -> option (list R) -> res (Est * list R)) alpha tol n D ys nt ws wt :
    plans_fit -> length D = length ys -> (forall l, ws = Some l -> length l = length ys) -> (forall l, wt = Some l -> length l = nt) -> 0 < n ->
    (forall M a b, exists r, solve M a b = Ok r) ->
    (forall yth, length yth = nt -> exists e yp, fit yth wt = Ok (e, yp) /\ length yp = nt) ->
    exists r, solve_jdot_regression solve fit alpha tol n D ys nt ws wt = Ok r.
  Proof.
    intros HP HD Hws Hwt Hn Ho Hf. unfold solve_jdot_regression. rewrite !marginal_proportions.
    set (a := proportions (length ys) ws). set (b := proportions nt wt).
    assert (La : length a = length ys) by (unfold a; now apply marg_length).
    assert (Lb : length b = nt) by (unfold b; now apply marg_length).
    assert (Hs : forall M T v, solve M a b = Ok (T, v) -> matrix (length ys) (length b) T) by (intros M T v H; rewrite <- La; eauto).
    assert (St : forall i s, exists s' x y, reg_step solve fit alpha (norm_mean D) ys a b wt i s = Ok (s', x, y) /\ exists r, snd s' = Some r).
    { intros i s. apply reg_step_total; auto. rewrite Lb. exact Hf. }
    destruct (loop_total (reg_step solve fit alpha (norm_mean D) ys a b wt) tol n (fun _ _ => True)) with (k := n) (i := 0)
      (s := (sqdist ys (repeat 0%R nt), @None (Est * list (list R)))) (p := @None R) (q := @None R) as [[[[s lo] ll] wa] El]; auto.
    { intros i s _. destruct (St i s) as (s' & x & y & E & _). eauto 6. }
    rewrite El. cbn [bind]. apply loop_stopping in El as [Tr SR]; auto. destruct SR as (_ & L & _).
    apply (trace_snd _ (fun s => exists r, snd s = Some r)) in Tr; [|intros i0 s0 s1 x y E; destruct (St i0 s0) as (s' & x' & y' & E' & K); rewrite E in E'; injection E' as -> _ _; exact K|lia].
    destruct Tr as [[e T] ->]. eauto.
  Qed.

Theorem C54_no_iteration (fit : list R -> option (list R) -> res (Est * list R)) alpha tol D ys nt ws wt :
    solve_jdot_regression solve fit alpha tol 0 D ys nt ws wt = Err UnboundLocalError.
  Proof. reflexivity. Qed.

Theorem C54_classification_run {Xrow} (fit : list Xrow -> list Z -> list R -> res Est) pred metric alpha thr tol n D ys Xt ws wt est lot llab T w :
    0 < n ->
    solve_jdot_classification solve fit pred metric alpha thr tol n D ys Xt ws wt = Ok (est, lot, llab, T, w) ->
    stopping_rule tol n lot llab w /\
    exists Ts vs es Ml,
      (forall j, j < length lot -> cls_iteration solve fit pred metric alpha thr D ys Xt (proportions (length ys) ws) (proportions (length Xt) wt)
         (match j with 0 => repeat (repeat 10%R (length Xt)) (length ys) | S j' => Ml j' end) (j =? 0)
         (Ts j) (vs j) (es j) (Ml j) (nth j lot 0%R) (nth j llab 0%R)) /\
      est = es (length lot - 1) /\ T = Ts (length lot - 1).
  Proof.
    intros Hn E. unfold solve_jdot_classification in E. rewrite !marginal_proportions in E.
    destruct (jdot_loop _ _ _ _ _ _ _ _) as [[[[s lo] ll] wa]|] eqn:El; [|discriminate]. cbn [bind] in E.
    destruct (snd s) as [[e T0]|] eqn:Es; [|discriminate]. injection E as <- <- <- <- <-.
    apply loop_stopping in El as [Tr SR]; auto. split; [exact SR|].
    destruct (cls_trace solve fit pred metric alpha thr D ys Xt _ _ e _ _ _ _ _ Tr) as (Ts & vs & es & Ml & I & F).
    exists Ts, vs, es, Ml. split; [exact I|]. destruct SR as (_ & L & _). rewrite Es in F. specialize (F ltac:(lia)). injection F as -> ->. auto.
  Qed.
End C54.

(** A solver returning the product plan: two source labels 0 and 2, one target; the estimator predicts the mean. The first
    iteration moves the label 1, the second changes nothing. *)
Definition product_plan (M : list (list R)) (a b : list R) : res (list (list R) * R) :=
  let T := map (fun x => map (fun y => x * y)%R b) a in Ok (T, inner_mat M T).
Lemma product_plan_fits : plans_fit product_plan.
Proof.
  intros M a b T v [= <- _]. split; [apply map_length|]. apply Forall_forall. intros r Hr. apply in_map_iff in Hr as (x & <- & _). apply map_length.
Qed.
Example C54_ex n : 0 < n -> exists r, solve_jdot_regression product_plan (fun y _ => Ok (tt, y)) (1/2) (1/10) n [[1]; [4]]%R [0; 2]%R 1 None None = Ok r.
Proof.
  intros Hn. apply C54_regression_succeeds; auto; try discriminate.
  - apply product_plan_fits.
  - intros. eexists. reflexivity.
  - intros yth H. eauto.
Qed.

(** C55 *)
Theorem C55_fitting_data {X L} (Xt : list X) Yth (labels : list L) thr_weights m : Xt <> [] ->
  matrix (length Xt) (length labels) Yth -> is_max m (concat Yth) ->
  exists kept, jdot_data Xt Yth labels thr_weights = Ok (map (fun t => fst (fst t)) kept, map (fun t => snd (fst t)) kept, map snd kept) /\
    kept = filter (fun t => if Rlt_dec (thr_weights * m) (snd t) then true else false) (all_triples Xt Yth labels).
Proof. intros HX HM Hm. rewrite (jdot_data_ok _ _ _ _ m) by auto. eexists. split; reflexivity. Qed.
Theorem C55_triples {X L} (Xt : list X) Yth (labels : list L) x c w : matrix (length Xt) (length labels) Yth ->
  (In (x, c, w) (all_triples Xt Yth labels) <->
   exists i k row, nth_error Xt i = Some x /\ nth_error labels k = Some c /\ nth_error Yth i = Some row /\ nth_error row k = Some w).
Proof.
  intros [H1 H2]. unfold all_triples. rewrite in_flat_map.
  assert (C : forall A B (l : list A) (m : list B) p, length l = length m ->
     (In p (combine l m) <-> exists i, nth_error l i = Some (fst p) /\ nth_error m i = Some (snd p))).
  { clear. induction l as [|a l IH]; intros [|b m] [u v] E; try discriminate.
    - split; [intros []|intros (i & K & _); now destruct i].
    - cbn [combine In]. rewrite IH by (now injection E). split.
      + intros [[= <- <-]|(i & K)]; [now exists 0|now exists (S i)].
      + intros ([|i] & K1 & K2); [left; cbn in *; congruence|right; now exists i]. }
  split.
  - intros ((x0 & row) & I & J). apply C in I as (i & I1 & I2); auto. apply in_map_iff in J as ((c0 & w0) & [= -> -> ->] & J).
    apply C in J as (k & J1 & J2); [|rewrite Forall_forall in H2; symmetry; apply H2; eapply nth_error_In; eauto].
    exists i, k, row. repeat split; auto.
  - intros (i & k & row & I1 & J1 & I2 & J2). exists (x, row). split; [apply C; auto; now exists i|].
    apply in_map_iff. exists (c, w). split; [reflexivity|]. apply C; [rewrite Forall_forall in H2; symmetry; apply H2; eapply nth_error_In; eauto|].
    now exists k.
Qed.
Theorem C55_empty_raises {X L} (Xt : list X) (labels : list L) thr : jdot_data Xt [] labels thr = Err ValueError.
Proof. reflexivity. Qed.
Example C55_ex : jdot_data [10; 20] [[4; 0]; [1; 2]]%R [7; 9] (1/4)%R = Ok ([10; 20], [7; 9], [4; 2]%R).
Proof.
  rewrite (jdot_data_ok _ _ _ _ 4%R).
  - cbn. unfold Rltb. repeat (destruct Rlt_dec; try lra). reflexivity.
  - discriminate.
  - repeat split; repeat constructor.
  - split; [now left|repeat constructor; lra].
Qed.

(** C88. Entry (i, j) of the label cost: loss of the scores of target sample j for the class of source sample i. *)
Theorem C88_label_cost metric ys p P : pred_matrix metric p = Ok P -> Forall (fun f => length f = length (unique ys)) P ->
  exists M, class_cost metric (map (onehot (unique ys)) ys) p = Ok M /\ matrix (length ys) (length P) M /\
  forall i j r, i < length ys -> j < length P -> column_of ys (nth i ys 0%Z) r ->
    nth j (nth i M []) 0%R = match metric with MHinge => hinge_cost r (nth j P []) | _ => (- nth r (nth j P []) 0)%R end.
Proof.
  intros E F. eexists. split; [exact (class_cost_entry metric ys p P E F)|]. split.
  - split; [apply map_length|]. apply Forall_forall. intros r Hr. apply in_map_iff in Hr as (y & <- & _). apply map_length.
  - intros i j r Hi Hj Hr. rewrite (nth_map2d _ _ i [] 0%Z) by auto.
    rewrite (nth_indep _ 0%R (row_loss metric (onehot (unique ys) (nth i ys 0%Z)) [])) by now rewrite map_length. rewrite map_nth.
    assert (L : length (nth j P []) = length (unique ys)) by (rewrite Forall_forall in F; apply F; now apply nth_In).
    destruct metric.
    + unfold row_loss. f_equal. apply onehot_dot; [apply unique_NoDup|exact Hr|exact L].
    + apply hinge_row; [apply unique_NoDup|exact Hr|exact L].
    + unfold row_loss. f_equal. apply onehot_dot; [apply unique_NoDup|exact Hr|exact L].
Qed.

(** The class with the larger score is strictly cheaper: class log-probabilities, probabilities, and decisions with one column
    per class. *)
Theorem C88_better_class_is_cheaper metric ys p P M i i' j r r' :
  pred_matrix metric p = Ok P -> Forall (fun f => length f = length (unique ys)) P ->
  class_cost metric (map (onehot (unique ys)) ys) p = Ok M -> i < length ys -> i' < length ys -> j < length P ->
  column_of ys (nth i ys 0%Z) r -> column_of ys (nth i' ys 0%Z) r' ->
  (nth r' (nth j P []) 0 < nth r (nth j P []) 0)%R -> (nth j (nth i M []) 0 < nth j (nth i' M []) 0)%R.
Proof.
  intros E F EM Hi Hi' Hj Hr Hr' Hlt. destruct (C88_label_cost metric ys p P E F) as (M' & EM' & _ & V).
  assert (M' = M) as -> by congruence. rewrite (V i j r), (V i' j r') by auto.
  assert (L : length (nth j P []) = length (unique ys)) by (rewrite Forall_forall in F; apply F; now apply nth_In).
  assert (Lr : r < length (unique ys)) by (apply nth_error_Some; unfold column_of in Hr; congruence).
  assert (Lr' : r' < length (unique ys)) by (apply nth_error_Some; unfold column_of in Hr'; congruence).
  destruct metric; try lra. rewrite !hinge_cost_gap by lia. apply hgap_strict in Hlt. lra.
Qed.

(** In terms of the probabilities themselves, zero included: the more probable class is strictly cheaper. *)
Theorem C88_more_probable_is_cheaper ys Q M i i' j r r' : Forall (fun f => length f = length (unique ys) /\ Forall (fun x => 0 <= x)%R f) Q ->
  class_cost MMultinomial (map (onehot (unique ys)) ys) (PProba Q) = Ok M -> i < length ys -> i' < length ys -> j < length Q ->
  column_of ys (nth i ys 0%Z) r -> column_of ys (nth i' ys 0%Z) r' ->
  (nth r' (nth j Q []) 0 < nth r (nth j Q []) 0)%R -> (nth j (nth i M []) 0 < nth j (nth i' M []) 0)%R.
Proof.
  intros F EM Hi Hi' Hj Hr Hr' Hlt.
  assert (LQ : length (nth j Q []) = length (unique ys) /\ Forall (fun x => 0 <= x)%R (nth j Q [])) by (rewrite Forall_forall in F; apply F; now apply nth_In). destruct LQ as [LQ PQ].
  assert (Lr : r < length (unique ys)) by (apply nth_error_Some; unfold column_of in Hr; congruence).
  assert (Lr' : r' < length (unique ys)) by (apply nth_error_Some; unfold column_of in Hr'; congruence).
  eapply (C88_better_class_is_cheaper MMultinomial ys (PProba Q) _ M i i' j r r' eq_refl); auto.
  - apply Forall_forall. intros f Hf. apply in_map_iff in Hf as (q & <- & Hq). rewrite map_length. rewrite Forall_forall in F. apply F; auto.
  - now rewrite map_length.
  - rewrite (nth_map2d _ _ j [] []) by auto. rewrite !(nth_indep (map _ _) 0%R (ln (0 + eps16))) by (rewrite map_length; lia). rewrite !(map_nth (fun x => ln (x + eps16))). rewrite Forall_forall in PQ. assert (P0 : (0 <= nth r' (nth j Q []) 0)%R) by (apply PQ, nth_In; lia).
    unfold eps16. apply ln_increasing; lra.
Qed.

(** With a one-dimensional decision (every binary classifier) the hinge cost is the same for the two classes: it carries no
    information on the labels. *)
Theorem C88_binary_hinge_refuted ys d : length (unique ys) = 2 ->
  exists M, class_cost MHinge (map (onehot (unique ys)) ys) (PDecision1 d) = Ok M /\
  forall i i' j, i < length ys -> i' < length ys -> j < length d -> nth j (nth i M []) 0%R = nth j (nth i' M []) 0%R.
Proof.
  intros H2. destruct (C88_label_cost MHinge ys (PDecision1 d) (map (fun x => [x; x]) d)) as (M & E & _ & V); [reflexivity| |].
  { apply Forall_forall. intros f Hf. apply in_map_iff in Hf as (x & <- & _). now rewrite H2. }
  exists M. split; [exact E|]. rewrite map_length in V.
  assert (K : forall i j, i < length ys -> j < length d -> nth j (nth i M []) 0%R = hinge_cost 0 (nth j (map (fun x => [x; x]) d) [])).
  { intros i j Hi Hj. assert (In (nth i ys 0%Z) (unique ys)) as I by (apply (proj2 (unique_In _ _)); now apply nth_In).
    apply In_nth_error in I as [r Hr]. assert (r < 2) by (rewrite <- H2; apply nth_error_Some; congruence).
    rewrite (V i j r) by auto. rewrite (nth_map2d _ _ j [] 0%R) by auto. rewrite !hinge_cost_gap by (simpl; lia).
    destruct r as [|[|r]]; [reflexivity|reflexivity|lia]. }
  intros i i' j Hi Hi' Hj. now rewrite !K.
Qed.
Example C88_ex : exists M, class_cost MMultinomial (map (onehot (unique [4; 2; 4]%Z)) [4; 2; 4]%Z) (PLogProba [[-1; -3]; [-5; -2]]%R) = Ok M /\
  nth 1 (nth 0 M []) 0%R = 2%R /\ nth 1 (nth 1 M []) 0%R = 5%R.
Proof.
  destruct (C88_label_cost MMultinomial [4; 2; 4]%Z (PLogProba [[-1; -3]; [-5; -2]]%R) [[-1; -3]; [-5; -2]]%R) as (M & E & _ & V);
    [reflexivity|repeat constructor|].
  exists M. split; [exact E|]. split; [rewrite (V 0 1 1) by (cbn; lia || reflexivity)|rewrite (V 1 1 0) by (cbn; lia || reflexivity)]; cbn; lra.
Qed.
(** A certain prediction: class 4 (column 1) has probability 1, class 2 probability 0. *)
Example C88_probable_ex : exists M, class_cost MMultinomial (map (onehot (unique [4; 2]%Z)) [4; 2]%Z) (PProba [[0; 1]]%R) = Ok M /\ (nth 0 (nth 0 M []) 0 < nth 0 (nth 1 M []) 0)%R.
Proof.
  destruct (C88_label_cost MMultinomial [4; 2]%Z (PProba [[0; 1]]%R) _ eq_refl) as (M & E & _ & _).
  { repeat constructor. }
  exists M. split; [exact E|]. apply (C88_more_probable_is_cheaper [4; 2]%Z [[0; 1]]%R M 0 1 0 1 0); [repeat constructor; lra|exact E|cbn; lia|cbn; lia|cbn; lia|reflexivity|reflexivity|cbn; lra].
Qed.
Example C88_refuted_ex : exists M, class_cost MHinge (map (onehot (unique [0; 1]%Z)) [0; 1]%Z) (PDecision1 [2]%R) = Ok M /\
  nth 0 (nth 0 M []) 0%R = nth 0 (nth 1 M []) 0%R.
Proof. destruct (C88_binary_hinge_refuted [0; 1]%Z [2]%R eq_refl) as (M & E & V). exists M. split; [exact E|]. apply V; cbn; lia. Qed.

(** C89 *)
Theorem C89_moved_labels_in_range G ys b lo hi : moves_onto G (length ys) b -> Forall (fun x => 0 < x)%R b ->
  Forall (fun y => lo <= y <= hi)%R ys -> Forall (fun v => lo <= v <= hi)%R (transported ys G b).
Proof.
  intros HG Hb Hy. rewrite transported_moved by apply HG. apply Forall_forall. intros v Hv. apply in_map_iff in Hv as (j & <- & Hj).
  apply in_seq in Hj. apply moved_bounds; auto; [lia|]. apply (proj1 (Forall_nth_R _ _) Hb). lia.
Qed.
(** The labels OTLabelProp gives to the target samples. *)
Theorem C89_label_propagation_in_range {Xrow} (plan : list Xrow -> list Xrow -> list R -> list R -> res (list (list R))) X y sw sd out lo hi :
  sd <> [] -> length X = length sd -> length y = length sd -> (forall w, sw = Some w -> length w = length sd) ->
  let b := proportions (how_many is_target sd) (opt_rows is_target sd sw) in
  (forall Xs Xt a G, plan Xs Xt a b = Ok G -> moves_onto G (how_many is_source sd) b) -> Forall (fun x => 0 < x)%R b ->
  Forall (fun y => lo <= y <= hi)%R (rows_of is_source sd y) ->
  otlp_regression plan X y sw sd = Ok out ->
  Forall (fun v => exists x, v = Some x /\ lo <= x <= hi)%R (rows_of is_target sd out).
Proof.
  intros Hsd HX Hy Hw b HP Hb Hr E. assert (E' := E). unfold otlp_regression in E. rewrite otlp_parts_ok in E by auto. cbn [bind] in E. fold b in E.
  destruct (plan _ _ _ b) as [G|] eqn:EG; [|discriminate]. assert (HG := HP _ _ _ _ EG).
  destruct (C52_regression_labels plan X y sw sd G) as (out' & E2 & (_ & _ & L)); auto; [apply HG|].
  assert (out' = out) as -> by congruence. rewrite L. apply Forall_forall. intros v Hv. apply in_map_iff in Hv as (j & <- & Hj). apply in_seq in Hj.
  assert (Lb : length b = how_many is_target sd).
  { unfold b. apply marg_length. intros l Hl. destruct sw as [w|]; [|discriminate]. injection Hl as <-. apply rows_of_length. symmetry. now apply Hw. }
  eexists. split; [reflexivity|]. apply moved_bounds; auto.
  - rewrite rows_of_length by auto. exact HG.
  - fold b. lia.
  - fold b. apply (proj1 (Forall_nth_R _ _) Hb). lia.
Qed.
(** JDOT regression only ever fits its estimator on labels in the range of the source labels: estimators that agree on those
    give the same run. *)
Theorem C89_jdot_fits_in_range {Est} solve (fit fit' : list R -> option (list R) -> res (Est * list R)) alpha tol n D ys nt ws wt lo hi :
  let b := proportions nt wt in
  (forall M a T v, solve M a b = Ok (T, v) -> moves_onto T (length ys) b) -> Forall (fun x => 0 < x)%R b -> Forall (fun y => lo <= y <= hi)%R ys ->
  (forall yth, Forall (fun v => lo <= v <= hi)%R yth -> fit yth wt = fit' yth wt) ->
  solve_jdot_regression solve fit alpha tol n D ys nt ws wt = solve_jdot_regression solve fit' alpha tol n D ys nt ws wt.
Proof.
  intros b Hs Hb Hy Hf. unfold solve_jdot_regression. rewrite !marginal_proportions. fold b.
  rewrite (loop_ext (reg_step solve fit alpha (norm_mean D) ys (proportions (length ys) ws) b wt)
                    (reg_step solve fit' alpha (norm_mean D) ys (proportions (length ys) ws) b wt)); [reflexivity|].
  intros i s. unfold reg_step. destruct (solve _ _ b) as [[T v]|] eqn:E; [|reflexivity]. cbn [bind].
  rewrite Hf; [reflexivity|]. apply C89_moved_labels_in_range; eauto.
Qed.
Example C89_ex : moves_onto [[1/3; 1/6]; [1/6; 1/3]]%R 2 [1/2; 1/2]%R.
Proof.
  split; [reflexivity|]. split; [repeat constructor; lra|]. intros [|[|j]] Hj; cbn in *; try lra. lia.
Qed.

(** C90 *)
Theorem C90_jdot_inputs {Xrow L Out} (solver : list Xrow -> list L -> list Xrow -> option (list R) -> option (list R) -> res Out) X y sw sd :
  sd <> [] -> length X = length sd -> length y = length sd -> (forall w, sw = Some w -> length w = length sd) ->
  jdot_fit solver X y sw sd =
  solver (rows_of is_source sd X) (rows_of is_source sd y) (rows_of is_target sd X) (opt_rows is_source sd sw) (opt_rows is_target sd sw).
Proof.
  intros Hsd HX Hy Hw. unfold jdot_fit.
  rewrite (split_w (Some X)) by (auto; intros l [= <-]; auto). cbn [bind].
  rewrite (split_w (Some y)) by (auto; intros l [= <-]; auto). cbn [bind].
  rewrite (split_w sw) by auto. reflexivity.
Qed.
Theorem C90_ignores_target_labels {Xrow L Out} (solver : list Xrow -> list L -> list Xrow -> option (list R) -> option (list R) -> res Out) X y y' sw sd :
  sd <> [] -> length X = length sd -> length y = length sd -> length y' = length sd -> (forall w, sw = Some w -> length w = length sd) ->
  (forall i d, nth_error sd i = Some d -> is_source d = true -> nth_error y i = nth_error y' i) ->
  jdot_fit solver X y sw sd = jdot_fit solver X y' sw sd.
Proof.
  intros Hsd HX Hy Hy' Hw H. rewrite !C90_jdot_inputs by auto. f_equal. clear -Hy Hy' H. revert y y' Hy Hy' H.
  induction sd as [|d sd IH]; intros [|a y] [|b y'] Hy Hy' H; try discriminate; [reflexivity|].
  assert (I := IH y y' ltac:(now injection Hy) ltac:(now injection Hy') (fun i e => H (S i) e)). specialize (H 0 d eq_refl).
  unfold rows_of in *. cbn [combine filter fst]. destruct (is_source d); [|exact I]. cbn [map snd].
  specialize (H eq_refl). cbn in H. injection H as ->. now rewrite I.
Qed.
Example C90_ex : jdot_fit (fun Xs ys Xt ws wt => Ok (Xs, ys, Xt, ws, wt)) [1; 2; 3] [10; 20; 30] (Some [5; 6; 7]%R) [-1; 1; -2]%Z
  = Ok ([2], [20], [1; 3], Some [6]%R, Some [5; 7]%R).
Proof. reflexivity. Qed.

(** C91 *)
Lemma opt_rows_ok (p : Z -> bool) sd (sw : option (list R)) : (forall w, sw = Some w -> length w = length sd) ->
  (forall w, sw = Some w -> vsum (rows_of p sd w) <> 0%R) ->
  forall l, opt_rows p sd sw = Some l -> length l = how_many p sd /\ vsum l <> 0%R.
Proof. intros H1 H2 l Hl. destruct sw as [w|]; [|discriminate]. injection Hl as <-. split; [apply rows_of_length; symmetry; auto|auto]. Qed.
(** The solvers are only called with probability vectors proportional to the sample weights: solvers that agree on those give the
    same result. *)
Theorem C91_label_propagation_marginals {Xrow} (plan plan' : list Xrow -> list Xrow -> list R -> list R -> res (list (list R))) X y sw sd :
  sd <> [] -> length X = length sd -> length y = length sd -> (forall w, sw = Some w -> length w = length sd) ->
  0 < how_many is_source sd -> 0 < how_many is_target sd ->
  (forall w, sw = Some w -> vsum (rows_of is_source sd w) <> 0%R) -> (forall w, sw = Some w -> vsum (rows_of is_target sd w) <> 0%R) ->
  (forall Xs Xt a b, distribution (how_many is_source sd) (opt_rows is_source sd sw) a -> distribution (how_many is_target sd) (opt_rows is_target sd sw) b ->
     plan Xs Xt a b = plan' Xs Xt a b) ->
  otlp_discrete plan X y sw sd = otlp_discrete plan' X y sw sd.
Proof.
  intros Hsd HX Hy Hw Hs Ht Ws Wt H. unfold otlp_discrete. rewrite otlp_parts_ok by auto. cbn [bind].
  rewrite H; [reflexivity| |]; apply proportions_distribution; auto; now apply opt_rows_ok.
Qed.
Theorem C91_jdot_regression_marginals {Est} solve solve' (fit : list R -> option (list R) -> res (Est * list R)) alpha tol n D ys nt ws wt :
  0 < length ys -> 0 < nt -> (forall l, ws = Some l -> length l = length ys /\ vsum l <> 0%R) -> (forall l, wt = Some l -> length l = nt /\ vsum l <> 0%R) ->
  (forall M a b, distribution (length ys) ws a -> distribution nt wt b -> solve M a b = solve' M a b) ->
  solve_jdot_regression solve fit alpha tol n D ys nt ws wt = solve_jdot_regression solve' fit alpha tol n D ys nt ws wt.
Proof.
  intros Hs Ht Ws Wt H. unfold solve_jdot_regression. rewrite !marginal_proportions.
  rewrite (loop_ext _ (reg_step solve' fit alpha (norm_mean D) ys (proportions (length ys) ws) (proportions nt wt) wt)); [reflexivity|].
  intros i s. unfold reg_step. rewrite H by (now apply proportions_distribution). reflexivity.
Qed.
Theorem C91_jdot_classification_marginals {Est Xrow} solve solve' (fit : list Xrow -> list Z -> list R -> res Est) pred metric alpha thr tol n D ys Xt ws wt :
  0 < length ys -> 0 < length Xt -> (forall l, ws = Some l -> length l = length ys /\ vsum l <> 0%R) ->
  (forall l, wt = Some l -> length l = length Xt /\ vsum l <> 0%R) ->
  (forall M a b, distribution (length ys) ws a -> distribution (length Xt) wt b -> solve M a b = solve' M a b) ->
  solve_jdot_classification solve fit pred metric alpha thr tol n D ys Xt ws wt = solve_jdot_classification solve' fit pred metric alpha thr tol n D ys Xt ws wt.
Proof.
  intros Hs Ht Ws Wt H. unfold solve_jdot_classification. rewrite !marginal_proportions.
  rewrite (loop_ext _ (cls_step solve' fit pred metric alpha thr (norm_mean D) ys Xt (proportions (length ys) ws) (proportions (length Xt) wt))); [reflexivity|].
  intros i s. unfold cls_step. rewrite H by (now apply proportions_distribution). reflexivity.
Qed.
Example C91_ex : distribution 2 (Some [1; 3]%R) [1/4; 3/4]%R.
Proof. split; [reflexivity|]. split; [cbn; lra|]. intros [|[|i]] [|[|j]] Hi Hj; cbn; lra || lia. Qed.

(** C92. Weights of the fitting data before thresholding: nt times the mass sent by each class, hence nt * b_j per target. *)
Lemma label_plan_entry T ys nt j r y : length T = length ys -> j < nt -> column_of ys y r ->
  nth r (nth j (label_plan T (map (onehot (unique ys)) ys) nt (length (unique ys))) []) 0%R = (INR nt * mass_of T ys y j)%R.
Proof.
  intros HT Hj Hr. unfold label_plan. rewrite nth_map_seq by auto.
  assert (Lr : r < length (unique ys)) by (apply nth_error_Some; unfold column_of in Hr; congruence).
  rewrite nth_map_seq by auto. rewrite Rmult_comm. f_equal. rewrite <- mass_dot by auto. f_equal.
  unfold col. rewrite map_map. apply map_ext_in. intros z Hz. unfold onehot.
  rewrite (nth_indep _ 0%R ((fun c => if (z =? c)%Z then 1%R else 0%R) 0%Z)) by now rewrite map_length.
  rewrite (map_nth (fun c => if (z =? c)%Z then 1%R else 0%R)). now rewrite (nth_error_nth _ _ _ Hr).
Qed.
Theorem C92_class_weights T ys nt : length T = length ys ->
  let W := label_plan T (map (onehot (unique ys)) ys) nt (length (unique ys)) in
  matrix nt (length (unique ys)) W /\
  forall j r y, j < nt -> column_of ys y r -> nth r (nth j W []) 0%R = (INR nt * mass_of T ys y j)%R.
Proof.
  intros HT W. split.
  - split; [unfold W, label_plan; now rewrite map_length, seq_length|]. apply Forall_forall. intros r Hr. unfold W, label_plan in Hr.
    apply in_map_iff in Hr as (j & <- & _). now rewrite map_length, seq_length.
  - intros j r y Hj Hr. now apply label_plan_entry.
Qed.
Lemma total_mass T ys j : length T = length ys -> vsum (map (fun c => mass_of T ys c j) (unique ys)) = vsum (map (fun r => nth j r 0%R) T).
Proof.
  intros HT. set (u := unique ys). assert (I : forall y, In y ys -> In y u) by (intros; now apply (proj2 (unique_In _ _))).
  assert (ND : NoDup u) by apply unique_NoDup. clearbody u. revert T HT.
  induction ys as [|y ys IH]; intros [|r T] HT; try discriminate.
  - unfold mass_of. cbn. induction u; cbn; [reflexivity|]. rewrite IHu; [lra|intros ? []|now inversion ND].
  - cbn [map vsum]. rewrite <- (IH (fun z Hz => I z (or_intror Hz)) T ltac:(now injection HT)).
    assert (Hy : In y u) by (apply I; now left). clear -ND Hy.
    assert (E : forall c, mass_of (r :: T) (y :: ys) c j = ((if (y =? c)%Z then nth j r 0 else 0) + mass_of T ys c j)%R).
    { intros c. unfold mass_of. cbn [combine filter fst]. destruct (y =? c)%Z; cbn [map vsum snd]; lra. }
    rewrite (map_ext _ _ E).
    assert (S : forall l, vsum (map (fun c => (if (y =? c)%Z then nth j r 0 else 0) + mass_of T ys c j)%R l)
      = (vsum (map (fun c => if (y =? c)%Z then nth j r 0 else 0) l) + vsum (map (fun c => mass_of T ys c j) l))%R).
    { induction l as [|c l IHl]; cbn [map vsum]; [lra|]. rewrite IHl. lra. }
    rewrite S. f_equal. clear S E. induction u as [|c u IHu]; [destruct Hy|]. inversion ND; subst. cbn [map vsum].
    assert (Z : ~ In y u -> vsum (map (fun c0 => if (y =? c0)%Z then nth j r 0%R else 0%R) u) = 0%R).
    { clear. induction u as [|c u IH]; intros N; [reflexivity|]. cbn [map vsum]. destruct (Z.eqb_spec y c); [subst; exfalso; apply N; now left|].
      rewrite IH; [lra|]. intros K. apply N. now right. }
    destruct (Z.eqb_spec y c) as [->|N].
    + rewrite Z by auto. lra.
    + destruct Hy as [->|Hy]; [easy|]. rewrite IHu by auto. lra.
Qed.
Theorem C92_weights_of_a_target T ys b : moves_onto T (length ys) b ->
  let nt := length b in let W := label_plan T (map (onehot (unique ys)) ys) nt (length (unique ys)) in
  forall j, j < nt -> vsum (nth j W []) = (INR nt * nth j b 0)%R.
Proof.
  intros (HT & _ & HC) nt W j Hj. rewrite <- HC by auto. rewrite <- (total_mass T ys j) by auto.
  destruct (C92_class_weights T ys nt HT) as [[L F] V]. fold W in L, F, V.
  assert (E : nth j W [] = map (fun c => (INR nt * mass_of T ys c j)%R) (unique ys)).
  { assert (Lr : length (nth j W []) = length (unique ys)) by (rewrite Forall_forall in F; apply F, nth_In; lia).
    apply vec_ext; [now rewrite map_length|]. intros r Hr. rewrite Lr in Hr.
    rewrite (V j r (nth r (unique ys) 0%Z)); auto; [|apply nth_error_nth'; auto].
    rewrite (nth_indep _ 0%R ((fun c => (INR nt * mass_of T ys c j)%R) 0%Z)) by now rewrite map_length.
    now rewrite (map_nth (fun c => (INR nt * mass_of T ys c j)%R)). }
  rewrite E. generalize (unique ys). intros u. induction u as [|c u IH]; cbn [map vsum]; [lra|]. rewrite IH. lra.
Qed.
(** Thresholding keeps every heaviest triple when thr_weights < 1, and drops only weights of at most thr_weights * max. *)
Theorem C92_threshold {X L} (Xt : list X) Yth (labels : list L) thr m : Xt <> [] -> matrix (length Xt) (length labels) Yth -> is_max m (concat Yth) ->
  (0 < m)%R -> (thr < 1)%R ->
  exists Xh yh wh, jdot_data Xt Yth labels thr = Ok (Xh, yh, wh) /\ In m wh /\ length Xh = length wh /\ length yh = length wh /\
  Forall (fun w => thr * m < w)%R wh /\ forall w, In w (concat Yth) -> ~ In w wh -> (w <= thr * m)%R.
Proof.
  intros HX HM Hm Hp Ht. rewrite (jdot_data_ok _ _ _ _ m) by auto. cbv zeta. eexists _, _, _. split; [reflexivity|].
  destruct (triples_parts Xt Yth labels (length labels) HM eq_refl) as (_ & _ & P3).
  assert (K : forall w, In w (concat Yth) -> (thr * m < w)%R -> In w (map snd (filter (fun t => Rltb (thr * m) (snd t)) (all_triples Xt Yth labels)))).
  { intros w Hw Hlt. rewrite <- P3 in Hw. apply in_map_iff in Hw as (t & <- & Hin). apply in_map_iff. exists t. split; auto. apply filter_In. split; auto. now apply Rltb_iff. }
  split; [|split; [|split; [|split]]].
  - apply K; [apply Hm|]. rewrite <- (Rmult_1_l m) at 2. now apply Rmult_lt_compat_r.
  - now rewrite !map_length.
  - now rewrite !map_length.
  - apply Forall_forall. intros w Hw. apply in_map_iff in Hw as (t & <- & Hin). apply filter_In in Hin as [_ Hin]. now apply Rltb_iff in Hin.
  - intros w Hw N. destruct (Rlt_le_dec (thr * m) w); auto. exfalso. apply N. now apply K.
Qed.
Example C92_ex : vsum (nth 0 (label_plan [[1/3; 1/6]; [1/6; 1/3]]%R (map (onehot (unique [7; 3]%Z)) [7; 3]%Z) 2 2) []) = 1%R.
Proof. etransitivity; [exact (C92_weights_of_a_target [[1/3; 1/6]; [1/6; 1/3]]%R [7; 3]%Z [1/2; 1/2]%R C89_ex 0 ltac:(cbn; lia))|]. cbn. lra. Qed.
