(** Theorems C172: the scoring argument of the scorers, and their options. *)
From Coq Require Import String List ZArith QArith Bool Arith Lia Reals Lra.
From Verif Require Import Np NpFacts Labels Spec SpecFacts UtilsModel UtilsSpec UtilsProofs UtilsProofs2 SelectModel
  RVec ReweightModel ReweightSpec MetricsModel MetricsSpec MetricsProofs MetricsProofs2 ThmMetrics ScorerModel.
Import ListNotations.
Local Open Scope nat_scope.
Local Open Scope list_scope.

(** ** Vocabulary *)
(** Whether a function accepts a given keyword. *)
Definition takes (a : accepts) (key : string) : Prop := match a with Any => True | Only l => In key l end.

Lemma accepted_takes a kw : accepted a kw = true <-> Forall (fun p => takes a (fst p)) kw.
Proof.
  destruct a as [l|]; cbn [accepted takes].
  - rewrite forallb_forall, Forall_forall. assert (Q : forall k, existsb (String.eqb k) l = true <-> In k l).
    { intros k. rewrite existsb_exists. split; [intros (k' & I & E); apply String.eqb_eq in E; now subst|intros I; exists k; split; [auto|apply String.eqb_refl]]. }
    split; intros H p I; apply Q; auto.
  - split; auto. intros _. apply Forall_forall. auto.
Qed.
Lemma accepted_not a key v kw : ~ takes a key -> accepted a ((key, v) :: kw) = false.
Proof. intros H. destruct (accepted a ((key, v) :: kw)) eqn:E; auto. apply accepted_takes in E. inversion E; subst. easy. Qed.

(** ** None: the score method of the estimator, on the target samples and their labels, without keywords. *)
Theorem C172_none_supervised : forall Row L sign (e : scored_est Row L) f params X y sd tl,
  sd <> [] -> length X = length sd -> length y = length sd -> length tl = length sd -> e_score e = Some f ->
  supervised sign e ScNone params X y (SDArr sd) tl
  = (v <- f3_run f (rows_of is_target sd X) (rows_of is_target sd tl) [] ;; Ok (sign * v)%R).
Proof.
  intros Row L sign e f params X y sd tl Ne LX Ly Lt Ef. unfold supervised, supervised_score.
  rewrite target_part_given by (auto; lia). cbn [bind]. rewrite select_target by auto. cbn [bind score_func].
  rewrite Ef. unfold call3. destruct (f3_accepts f); reflexivity.
Qed.

(** A function that accepts the keywords of the call: its value on the same samples, times the sign. *)
Theorem C172_function_supervised : forall Row L sign (e : scored_est Row L) f params X y sd tl,
  sd <> [] -> length X = length sd -> length y = length sd -> length tl = length sd ->
  takes (f3_accepts f) "sample_domain" -> Forall (fun p => takes (f3_accepts f) (fst p)) params ->
  supervised sign e (ScFun f) params X y (SDArr sd) tl
  = (v <- f3_run f (rows_of is_target sd X) (rows_of is_target sd tl) (("sample_domain"%string, KDomain (filter is_target sd)) :: params) ;; Ok (sign * v)%R).
Proof.
  intros Row L sign e f params X y sd tl Ne LX Ly Lt Ht Hp. unfold supervised, supervised_score.
  rewrite target_part_given by (auto; lia). cbn [bind]. rewrite select_target by auto. cbn [bind score_func].
  unfold call3. rewrite (proj2 (accepted_takes _ _)) by (constructor; auto). now rewrite rows_of_self.
Qed.

(** The keywords of the call of ImportanceWeightedScorer. *)
Definition weighted_call (sd : list Z) (w : list R) (params : kwargs) : kwargs :=
  (("sample_domain", KDomain sd) :: ("sample_weight", KWeights w) :: ("allow_source", KFlag true) :: params)%string.

(** None or a function accepting the three keywords: the value on the source samples with the weights, times the sign. *)
Theorem C172_function_importance : forall Row registry sign (e : scored_est Row val) f sc params kde fexp X y sd r,
  (forall t, 0 <= fexp t)%R -> 0 < how_many is_source sd -> (forall A g, kde A = Ok g -> row_wise g) ->
  (sc = ScNone /\ e_score e = Some f \/ sc = ScFun f) ->
  importance registry sign e true sc params kde fexp X y (SDArr sd) = Ok r ->
  exists weights v, length weights = how_many is_source sd /\ distribution weights /\
    f3_run f (rows_of is_source sd X) (rows_of is_source sd y) (weighted_call (filter is_source sd) weights params) = Ok v /\ r = (sign * v)%R.
Proof.
  intros Row registry sign e f sc params kde fexp X y sd r Hf Hs Hk Hsc H. unfold importance in H.
  assert (C : check_scoring registry e sc = Ok (call3 f)) by (destruct Hsc as [[-> E]| ->]; cbn; [now rewrite E|auto]).
  rewrite C in H. cbn [bind negb] in H. apply C45_weights in H as (es & et & ls & lt & w & v & _ & _ & _ & _ & Lw & Dw & _ & Hv & ->); auto.
  exists w, v. repeat split; auto; try apply Dw. unfold call3 in Hv. now destruct (accepted _ _).
Qed.

(** The same for MixValScorer: what C50 says, with the scores of that function. *)
Theorem C172_function_mixval : forall registry sign (e : scored_est (list R) Z) f sc predict alpha ice perm X y sda,
  (sc = ScNone /\ e_score e = Some f \/ sc = ScFun f) -> takes (f3_accepts f) "sample_domain" ->
  mixval registry sign e sc predict alpha ice perm X y sda
  = mixval_score sign predict (fun Xm ym sdm => f3_run f Xm ym [("sample_domain"%string, KDomain sdm)]) alpha ice perm X y sda.
Proof.
  intros registry sign e f sc predict alpha ice perm X y sda Hsc Ht. unfold mixval.
  assert (C : check_scoring registry e sc = Ok (call3 f)) by (destruct Hsc as [[-> E]| ->]; cbn; [now rewrite E|auto]).
  rewrite C. cbn [bind]. unfold call3. destruct f as [[l|] run]; cbn [f3_accepts f3_run accepted] in *; auto.
  assert (E : existsb (String.eqb "sample_domain") l = true) by (apply existsb_exists; exists "sample_domain"%string; split; [exact Ht|reflexivity]).
  cbn [forallb fst]. rewrite E. reflexivity.
Qed.

(** ** Strings and functions with the documented signature *)
(** A string given to SupervisedScorer: always a TypeError, whatever the string. *)
Theorem C172_string_supervised_refuted : forall Row L sign (e : scored_est Row L) s params X y sd tl,
  sd <> [] -> length X = length sd -> length y = length sd -> length tl = length sd ->
  supervised sign e (ScStr s) params X y (SDArr sd) tl = Err TypeError.
Proof.
  intros Row L sign e s params X y sd tl Ne LX Ly Lt. unfold supervised, supervised_score.
  rewrite target_part_given by (auto; lia). cbn [bind]. rewrite select_target by auto. reflexivity.
Qed.

(** What a scorer that never accepts sample_domain makes of the three scores. *)
Lemma importance_never Row sign kde fexp scorer (X : list Row) y sda r :
  (forall a b c d, exists ex, scorer a b c d = Err ex) -> importance_score Row sign kde fexp scorer X y sda <> Ok r.
Proof.
  intros N H. unfold importance_score in H.
  apply bind_ok in H as [sd [_ H]]. apply bind_ok in H as [m [_ H]]. apply bind_ok in H as [Xs [_ H]]. apply bind_ok in H as [Xt [_ H]].
  apply bind_ok in H as [ys [_ H]]. apply bind_ok in H as [es [_ H]]. apply bind_ok in H as [et [_ H]]. apply bind_ok in H as [ws [_ H]].
  apply bind_ok in H as [wt [_ H]]. apply bind_ok in H as [d [_ H]]. apply bind_ok in H as [sds [_ H]]. apply bind_ok in H as [s [H _]].
  destruct (N Xs ys sds (normalise_sum_or_uniform (map fexp d))) as [ex E]. congruence.
Qed.
Lemma mix_part_never scorer idx A B o : (forall a b c, exists ex, scorer a b c = Err ex) -> mix_part scorer idx A B = Ok o -> o = None.
Proof.
  intros N H. unfold mix_part in H. destruct idx as [|i idx]; [now injection H as <-|].
  apply bind_ok in H as [a [_ H]]. apply bind_ok in H as [b [_ H]]. apply bind_ok in H as [s [H _]].
  destruct (N a b (repeat (-1)%Z (length (i :: idx)))) as [ex E]. congruence.
Qed.
Lemma mixval_never sign predict scorer alpha ice perm X y sda r :
  (forall a b c, exists ex, scorer a b c = Err ex) -> mixval_score sign predict scorer alpha ice perm X y sda <> Ok (Some r).
Proof.
  intros N H. unfold mixval_score in H. apply bind_ok in H as [[[m Xt] sdt] [_ H]]. apply bind_ok in H as [ty [_ H]].
  destruct ty; [discriminate|].
  apply bind_ok in H as [la [_ H]]. apply bind_ok in H as [lb [_ H]]. apply bind_ok in H as [eqs [_ H]]. apply bind_ok in H as [Xp [_ H]].
  apply bind_ok in H as [mi [_ H]]. apply bind_ok in H as [s1 [H1 H]]. apply bind_ok in H as [s2 [H2 H]].
  assert (s1 = None) by (destruct ice; try (now injection H1 as <-); eapply mix_part_never; eauto).
  assert (s2 = None) by (destruct ice; try (now injection H2 as <-); eapply mix_part_never; eauto).
  subst. destruct ice; discriminate.
Qed.

(** A scoring function without the keyword sample_domain, e.g. one with the documented signature scorer(estimator, X, y): no score, by any of
    the three scorers, on any data. *)
Theorem C172_function_refuted : forall Row sign params,
  (forall (e : scored_est Row val) f X y sda tl r, ~ takes (f3_accepts f) "sample_domain" -> supervised sign e (ScFun f) params X y sda tl <> Ok r) /\
  (forall registry (e : scored_est Row val) f weighted kde fexp X y sda r, ~ takes (f3_accepts f) "sample_domain" ->
     importance registry sign e weighted (ScFun f) params kde fexp X y sda <> Ok r) /\
  (forall registry (e : scored_est (list R) Z) f predict alpha ice perm X y sda r, ~ takes (f3_accepts f) "sample_domain" ->
     mixval registry sign e (ScFun f) predict alpha ice perm X y sda <> Ok (Some r)).
Proof.
  intros Row sign params. split; [|split].
  - intros e f X y sda tl r E H. unfold supervised, supervised_score in H. apply bind_ok in H as [[[m Xt] sdt] [_ H]].
    apply bind_ok in H as [lt [_ H]]. apply bind_ok in H as [s [H _]]. cbn [score_func] in H. unfold call3 in H. now rewrite accepted_not in H.
  - intros registry e f weighted kde fexp X y sda r E H. unfold importance in H. cbn [check_scoring bind] in H. destruct weighted; [|discriminate].
    cbn [negb] in H. revert H. apply importance_never. intros a b c d. exists TypeError. unfold call3. now rewrite accepted_not.
  - intros registry e f predict alpha ice perm X y sda r E H. unfold mixval in H. cbn [check_scoring bind] in H.
    revert H. apply mixval_never. intros a b c. exists TypeError. unfold call3. now rewrite accepted_not.
Qed.

(** A string naming a metric without the keyword sample_domain (all those of scikit-learn): no score, by ImportanceWeightedScorer or MixValScorer. *)
Theorem C172_string_refuted : forall Row sign params s,
  (forall registry m (e : scored_est Row val) weighted kde fexp X y sda r, registry s = Some m -> ~ takes (mt_accepts m) "sample_domain" ->
     importance registry sign e weighted (ScStr s) params kde fexp X y sda <> Ok r) /\
  (forall registry m (e : scored_est (list R) Z) predict alpha ice perm X y sda r, registry s = Some m -> ~ takes (mt_accepts m) "sample_domain" ->
     mixval registry sign e (ScStr s) predict alpha ice perm X y sda <> Ok (Some r)).
Proof.
  assert (N : forall Row L (m : metric L) (e : scored_est Row L) X y v kw, ~ takes (mt_accepts m) "sample_domain" ->
            exists ex, call_scorer m e X y (("sample_domain"%string, v) :: kw) = Err ex).
  { intros Row L m e X y v kw E. unfold call_scorer. destruct (e_predict e X) as [p|ex]; cbn [bind]; [|eauto]. rewrite accepted_not by auto. eauto. }
  intros Row sign params s. split.
  - intros registry m e weighted kde fexp X y sda r Em E H. unfold importance in H. cbn [check_scoring] in H. rewrite Em in H. cbn [bind] in H.
    destruct weighted; [|discriminate]. cbn [negb] in H. revert H. apply importance_never. intros a b c d. now apply N.
  - intros registry m e predict alpha ice perm X y sda r Em E H. unfold mixval in H. cbn [check_scoring] in H. rewrite Em in H. cbn [bind] in H.
    revert H. apply mixval_never. intros a b c. now apply N.
Qed.

(** A name scikit-learn does not know, or an estimator without score: refused before anything is computed. *)
Theorem C172_unknown : forall Row registry1 registry2 sign params,
  (forall s (e : scored_est Row val) weighted kde fexp X y sda, registry1 s = None ->
     importance registry1 sign e weighted (ScStr s) params kde fexp X y sda = Err ValueError) /\
  (forall s (e : scored_est (list R) Z) predict alpha ice perm X y sda, registry2 s = None ->
     mixval registry2 sign e (ScStr s) predict alpha ice perm X y sda = Err ValueError) /\
  (forall (e : scored_est Row val) weighted kde fexp X y sda, e_score e = None ->
     importance registry1 sign e weighted ScNone params kde fexp X y sda = Err TypeError) /\
  (forall (e : scored_est (list R) Z) predict alpha ice perm X y sda, e_score e = None ->
     mixval registry2 sign e ScNone predict alpha ice perm X y sda = Err TypeError).
Proof.
  intros Row r1 r2 sign params. repeat match goal with |- _ /\ _ => split end; intros; unfold importance, mixval; cbn [check_scoring]; now rewrite H.
Qed.

(** ** Options: refused by the constructor exactly when they are not among the documented ones. *)
Theorem C172_options :
  (forall s, (exists r, entropy_init s = Ok r) <-> In s ["none"; "mean"; "sum"]%string) /\
  (forall s, (exists r, mixval_init s = Ok r) <-> In s ["both"; "intra"; "inter"]%string) /\
  (forall p, (exists r, mano_init p = Ok r) <-> (0 < p)%R) /\ (forall c, circular_init c = Ok tt <-> c = true) /\
  (forall s ex, (entropy_init s = Err ex \/ mixval_init s = Err ex) -> ex = ValueError).
Proof.
  assert (K : forall (s : string) (a b c : string) T (x y z : T),
    ((exists r, (if String.eqb s a then Ok x else if String.eqb s b then Ok y else if String.eqb s c then Ok z else Err ValueError) = Ok r) <-> In s [a; b; c]) /\
    forall ex, (if String.eqb s a then Ok x else if String.eqb s b then Ok y else if String.eqb s c then Ok z else Err ValueError) = Err ex -> ex = ValueError).
  { intros s a b c T x y z. destruct (String.eqb_spec s a) as [->|Na]; [split; [|discriminate]; split; [cbn; auto|eauto]|].
    destruct (String.eqb_spec s b) as [->|Nb]; [split; [|discriminate]; split; [cbn; auto|eauto]|].
    destruct (String.eqb_spec s c) as [->|Nc]; [split; [|discriminate]; split; [cbn; auto|eauto]|].
    split; [|now intros ex [= <-]]. split; [intros [r E]; discriminate|]. cbn. intros [E|[E|[E|[]]]]; congruence. }
  split; [intros s; apply K|]. split; [intros s; apply K|]. split.
  - intros p. unfold mano_init, Rleb. destruct (Rle_dec p 0); split; intros; try lra; eauto. now destruct H.
  - split; [intros []; split; (reflexivity || discriminate)|]. intros s ex [H|H]; eapply K; exact H.
Qed.

(** ** Examples *)
Definition accuracy_like : metric Z := mkMetric (Only ["normalize"; "sample_weight"]%string) (fun _ _ _ => Ok 1%R) 1%R.
Example C172_ex_string :
  mixval (fun s => if String.eqb s "accuracy" then Some accuracy_like else None) 1 (mkEst None (fun X => Ok (map (fun _ => 0%Z) X))) (ScStr "accuracy")
    (fun X _ => Ok (map (fun _ => 0%Z) X)) (1/2) IceBoth [1; 0] [[1%R]; [2%R]; [3%R]] (map VNum [1; -1; -1]%Q) (SDArr [1; -2; -2]%Z) = Err TypeError.
Proof. unfold mixval. cbn. unfold Rleb. destruct (Rle_dec _ _); reflexivity. Qed.
Example C172_ex_none : forall score : list Z -> list Z -> kwargs -> res R, score [20; 40]%Z [2; 4]%Z [] = Ok 5%R ->
  supervised (-1) (mkEst (Some (mkF3 (Only ["sample_weight"]%string) score)) (fun X => Ok X)) ScNone [] [10; 20; 30; 40]%Z (map VNum [1; -1; 1; -1]%Q)
    (SDArr [1; -2; 0; -3]%Z) [1; 2; 3; 4]%Z = Ok (-5)%R.
Proof.
  intros score H. erewrite C172_none_supervised; [|discriminate|reflexivity|reflexivity|reflexivity|reflexivity]. cbn. rewrite H. cbn. f_equal. lra.
Qed.
Example C172_ex_function : forall params : kwargs, ~ takes (Only []) "sample_domain" /\ entropy_init "Mean" = Err ValueError.
Proof. intros _. split; [intros []|reflexivity]. Qed.
