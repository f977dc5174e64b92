(** Theorems C166 and C167: the arguments of the deep methods and the training loss of the nets they build. *)
From Coq Require Import String List ZArith QArith Bool Arith Lia Reals Lra.
From Verif Require Import Np NpFacts Labels RVec RVecFacts Spec SpecFacts UtilsProofs LossModel LossProofs DeepModel DeepSpec DeepProofs DeepProofs2 DeepProofs3 ThmDeep
  CallModel ThmCall AlignModel NetModel NetSpec NetProofs NetProofs2 ThmNet BuildModel BuildSpec.
Import ListNotations.
Local Open Scope nat_scope.
Local Open Scope list_scope.

Lemma mem_iff : forall s l, mem s l = true <-> In s l.
Proof.
  intros s l. unfold mem. rewrite existsb_exists. split.
  - intros (x & I & E). apply String.eqb_eq in E. now subst.
  - intros I. exists s. split; [exact I | apply String.eqb_refl].
Qed.

(** ** C166: names of arguments *)

Lemma required_iff m r : In r (required m) <-> needed m r.
Proof. unfold needed. destruct m; cbn; intuition congruence. Qed.
Lemma signature_listed m s : In s (signature m) -> In s (documented m) \/ In s (unlisted m).
Proof. destruct m; cbn; tauto. Qed.
(** Documented arguments and training options are accepted, in any combination with the required ones, by all methods but two. *)
Theorem C166_names : forall m names, m <> MDeepJDOT -> m <> MSPA -> (forall r, needed m r -> In r names) ->
  (forall s, In s names -> In s (documented m) \/ In s training_options) -> call_names m names = Ok tt.
Proof.
  intros m names H1 H2 Hr Hd. unfold call_names.
  assert (E1 : forallb (fun r => mem r names) (required m) = true). { apply forallb_forall. intros r I. apply mem_iff. apply Hr. now apply required_iff. }
  rewrite E1. cbn [negb].
  assert (D : forall s, In s (filter (fun s => negb (mem s (signature m))) names) -> In s training_options).
  { intros s I. apply filter_In in I. destruct I as [I N]. destruct (Hd s I) as [C|C]; [|exact C]. exfalso.
    assert (K : In s (signature m)). { destruct m; try congruence; cbn in *; tauto. }
    apply mem_iff in K. rewrite K in N. discriminate. }
  assert (E2 : existsb (fun s => mem s (passed m)) (filter (fun s => negb (mem s (signature m))) names) = false).
  { apply not_true_is_false. intros E. apply existsb_exists in E. destruct E as (s & I & M). apply D in I.
    assert (B : existsb (fun s => mem s (passed m)) training_options = true) by (apply existsb_exists; now exists s).
    destruct m; discriminate B. }
  rewrite E2.
  assert (E3 : forallb skorch_accepts (filter (fun s => negb (mem s (signature m))) names) = true).
  { apply forallb_forall. intros s I. apply D in I. assert (B : forallb skorch_accepts training_options = true) by reflexivity.
    rewrite forallb_forall in B. now apply B. }
  rewrite E3. reflexivity.
Qed.
(** The regularisation parameter documented for DeepJDOT and SPA does not exist: whatever else is given, the call is refused. *)
Theorem C166_reg_refuted : forall m names, m = MDeepJDOT \/ m = MSPA -> In "reg"%string names ->
  In "reg"%string (documented m) /\ call_names m names = Err TypeError.
Proof.
  intros m names Hm I. split; [destruct Hm; subst; cbn; tauto|]. unfold call_names.
  destruct (forallb _ (required m)); [|reflexivity]. cbn [negb].
  destruct (existsb _ _); [reflexivity|].
  assert (E : forallb skorch_accepts (filter (fun s => negb (mem s (signature m))) names) = false).
  { apply not_true_is_false. intros E. rewrite forallb_forall in E. specialize (E "reg"%string).
    assert (K : skorch_accepts "reg"%string = false) by reflexivity. rewrite K in E. discriminate E. apply filter_In. split; [exact I|].
    destruct Hm; subst; reflexivity. }
  rewrite E. reflexivity.
Qed.
(** All the other documented arguments of these two are accepted. *)
Theorem C166_without_reg : forall m names, m = MDeepJDOT \/ m = MSPA -> (forall r, needed m r -> In r names) ->
  (forall s, In s names -> s <> "reg"%string /\ (In s (documented m) \/ In s training_options)) -> call_names m names = Ok tt.
Proof.
  intros m names Hm Hr Hd. unfold call_names.
  assert (E1 : forallb (fun r => mem r names) (required m) = true). { apply forallb_forall. intros r I. apply mem_iff. apply Hr. now apply required_iff. }
  rewrite E1. cbn [negb].
  assert (D : forall s, In s (filter (fun s => negb (mem s (signature m))) names) -> In s training_options).
  { intros s I. apply filter_In in I. destruct I as [I N]. destruct (Hd s I) as [Q [C|C]]; [|exact C]. exfalso.
    assert (K : In s (signature m)). { destruct Hm; subst m; cbn in *; intuition congruence. }
    apply mem_iff in K. rewrite K in N. discriminate. }
  assert (E2 : existsb (fun s => mem s (passed m)) (filter (fun s => negb (mem s (signature m))) names) = false).
  { apply not_true_is_false. intros E. apply existsb_exists in E. destruct E as (s & I & M). apply D in I.
    assert (B : existsb (fun s => mem s (passed m)) training_options = true) by (apply existsb_exists; now exists s).
    destruct Hm; subst m; discriminate B. }
  rewrite E2.
  assert (E3 : forallb skorch_accepts (filter (fun s => negb (mem s (signature m))) names) = true).
  { apply forallb_forall. intros s I. apply D in I. assert (B : forallb skorch_accepts training_options = true) by reflexivity.
    rewrite forallb_forall in B. now apply B. }
  rewrite E3. reflexivity.
Qed.
(** A call without the module or the layer, or with a misspelt argument, is refused. *)
Theorem C166_missing : forall m names r, needed m r -> ~ In r names -> call_names m names = Err TypeError.
Proof.
  intros m names r I N. apply required_iff in I. unfold call_names.
  assert (E : forallb (fun r => mem r names) (required m) = false).
  { apply not_true_is_false. intros E. rewrite forallb_forall in E. specialize (E r I). apply mem_iff in E. contradiction. }
  rewrite E. reflexivity.
Qed.
Theorem C166_unknown : forall m names s, In s names -> ~ In s (documented m) -> ~ In s (unlisted m) -> skorch_accepts s = false ->
  call_names m names = Err TypeError.
Proof.
  intros m names s I N0 N1 K. assert (N : ~ In s (signature m)) by (intros J; destruct (signature_listed m s J); contradiction). unfold call_names. destruct (forallb _ (required m)); [|reflexivity]. cbn [negb].
  destruct (existsb _ _); [reflexivity|].
  assert (E : forallb skorch_accepts (filter (fun s => negb (mem s (signature m))) names) = false).
  { apply not_true_is_false. intros E. rewrite forallb_forall in E. specialize (E s). rewrite K in E. discriminate E. apply filter_In. split; [exact I|].
    apply Bool.negb_true_iff. apply not_true_is_false. intros M. apply mem_iff in M. contradiction. }
  rewrite E. reflexivity.
Qed.
Example C166_ex : call_names MMDD ["module"; "layer_name"; "gamma"; "reg"; "lr"; "num_features"; "n_classes"]%string = Ok tt /\
  call_names MDeepJDOT ["module"; "layer_name"; "reg"]%string = Err TypeError /\ call_names MDeepJDOT ["module"; "layer_name"; "reg_cl"]%string = Ok tt /\
  call_names MDAN ["module"; "layer_name"; "sigma"]%string = Err TypeError.
Proof. repeat split; reflexivity. Qed.

(** ** C166: classes and instances *)

Section Losses.
  Variable kmeans : option (list (list R) * (list R -> nat)).
  Variable n_epochs : nat.
  Variable sv : nat -> (nat -> nat -> R) -> list R.
  Variable emd2 : list R -> list R -> list (list R) -> res R.
  Variable nap : nat -> list (list R) -> list (list R) -> list nat -> res R.
  Notation loss := (training_loss kmeans n_epochs sv emd2 nap).

(** The documentation asks for classes; with an instance everything works, with a class nothing does: the module is refused, and no
    batch has a training loss. *)
Theorem C166_module_class_refuted : forall (A : Type) (a : A), use_module (GClass a) = Err TypeError /\ use_module (GInstance a) = Ok a.
Proof. split; reflexivity. Qed.
Theorem C166_base_class_refuted : forall c f, g_base c = GClass f -> forall pred dom feat sd idx y, exists e, loss c pred dom feat sd idx y = Err e.
Proof.
  intros c f E pred dom feat sd idx y. unfold training_loss, criterion_forward. rewrite E. cbn [call_criterion].
  assert (B : forall (p : list (list R)) (l : list val), exists e, (if length l =? 1 then Err TypeError else Err RuntimeError : res tensor) = Err e)
    by (intros p l; destruct (length l =? 1); eauto).
  repeat match goal with
  | |- exists e, bind ?x _ = Err e => first [ match x with if length _ =? 1 then _ else _ => fail 1 | if g_target c then _ else _ => fail 1 | _ => idtac end; destruct x; cbn [bind]; [|eauto] ]
  end.
  destruct (g_target c).
  - destruct (np_select _ y); cbn [bind]; [|eauto]. destruct (length _ =? 1); cbn [bind]; eauto.
  - destruct (np_select _ y); cbn [bind]; [|eauto]. destruct (length _ =? 1); cbn [bind]; eauto.
Qed.
Theorem C166_domain_class_refuted : forall f reg base, (forall pred dom feat sd idx y, exists e, loss (DANN reg base (GClass f)) pred dom feat sd idx y = Err e) /\
  (forall ra rg rn me pred dom feat sd idx y, exists e, loss (SPA ra rg rn base (GClass f) me) pred dom feat sd idx y = Err e).
Proof.
  intros f reg base. split.
  - intros pred dom feat sd idx y. unfold training_loss, criterion_forward. cbn [g_adapt DANN].
    assert (A : forall ys ps pt ds dt fs ft is_ it, exists e, adapt_forward kmeans n_epochs sv emd2 nap (ADomain (GClass f)) ys ps pt ds dt fs ft is_ it = Err e).
    { intros. cbn [adapt_forward]. destruct (need ds); cbn [bind]; [|eauto]. destruct (need dt); cbn [bind]; [|eauto].
      destruct (one_column _); cbn [bind]; [|eauto]. destruct (one_column _); cbn [bind]; [|eauto]. unfold dann_loss, call_criterion. destruct (length _ =? 1); cbn [bind]; eauto. }
    repeat match goal with |- exists er, bind ?x _ = Err er => match x with adapt_forward _ _ _ _ _ _ _ _ _ _ _ _ _ _ _ => fail 1 | _ => destruct x; cbn [bind]; [|eauto] end end.
    match goal with |- exists er, bind (adapt_forward _ _ _ _ _ _ ?a ?b ?c ?d ?e ?f ?g ?h ?i) _ = _ => destruct (A a b c d e f g h i) as [er ->] end. cbn [bind]. eauto.
  - intros ra rg rn me pred dom feat sd idx y. unfold training_loss, criterion_forward. cbn [g_adapt SPA].
    assert (A : forall a b c d e ys ps pt ds dt fs ft is_ it, exists er, adapt_forward kmeans n_epochs sv emd2 nap (ASpa a b c d e (GClass f)) ys ps pt ds dt fs ft is_ it = Err er).
    { intros. cbn [adapt_forward]. destruct (need ds); cbn [bind]; [|eauto]. destruct (need dt); cbn [bind]; [|eauto]. destruct (need fs); cbn [bind]; [|eauto].
      destruct (need ft); cbn [bind]; [|eauto]. destruct (need it); cbn [bind]; [|eauto].
      destruct (one_column _); cbn [bind]; [|eauto]. destruct (one_column _); cbn [bind]; [|eauto]. unfold spa_loss. destruct (_ =? 0); [eauto|].
      unfold dann_loss, call_criterion. destruct (length _ =? 1); cbn [bind]; eauto. }
    repeat match goal with |- exists er, bind ?x _ = Err er => match x with adapt_forward _ _ _ _ _ _ _ _ _ _ _ _ _ _ _ => fail 1 | _ => destruct x; cbn [bind]; [|eauto] end end.
    match goal with |- exists er, bind (adapt_forward _ _ _ _ _ (ASpa ?q ?r ?s ?t ?u _) ?a ?b ?c ?d ?e ?f ?g ?h ?i) _ = _ => destruct (A q r s t u a b c d e f g h i) as [er ->] end. cbn [bind]. eauto.
Qed.

(** ** C167: the training loss *)

Lemma call_chosen : forall {A B C} (d : A -> list B -> res C) g, is_class g = false -> forall p l, call_criterion d g p l = chosen d g p l.
Proof. intros A B C d g H p l. destruct g; [reflexivity|reflexivity|discriminate]. Qed.

Lemma loss_source : forall c pred dom feat sd idx y, g_target c = false -> is_class (g_base c) = false -> length pred = length sd -> length y = length sd ->
  (forall l, dom = Some l -> length l = length sd) -> (forall l, feat = Some l -> length l = length sd) -> (forall l, idx = Some l -> length l = length sd) ->
  loss c pred dom feat sd idx y =
  combined (chosen ce_default (g_base c) (rows_of is_source sd pred) (rows_of is_source sd y)) (g_reg c)
           (adapt_forward kmeans n_epochs sv emd2 nap (g_adapt c) (rows_of is_source sd y) (rows_of is_source sd pred) (rows_of is_target sd pred)
              (option_map (rows_of is_source sd) dom) (option_map (rows_of is_target sd) dom) (option_map (rows_of is_source sd) feat) (option_map (rows_of is_target sd) feat)
              (option_map (rows_of is_source sd) idx) (option_map (rows_of is_target sd) idx)).
Proof.
  intros c pred dom feat sd idx y Ht Hc Lp Ly Ld Lf Li. unfold training_loss. rewrite Ht, C63_source_labels_only by assumption. unfold combined.
  rewrite call_chosen by exact Hc. reflexivity.
Qed.

Lemma rows_of_map : forall {A B} (f : A -> B) p sd l, rows_of p sd (map f l) = map f (rows_of p sd l).
Proof.
  intros A B f p sd l. rewrite !rows_of_select. revert l. induction sd as [|s sd IH]; intros [|a l]; cbn [map select]; try reflexivity.
  rewrite IH. destruct (p s); reflexivity.
Qed.
Lemma one_column_map : forall l, one_column (map (fun x => [x]) l) = Ok l.
Proof. intros l. unfold one_column. apply mapM_ok_iff. induction l; cbn; constructor; auto. Qed.
Lemma combined_ext : forall b b' r a a', b = b' -> a = a' -> combined b r a = combined b' r a'.
Proof. intros; subst; reflexivity. Qed.
Lemma dann_ext : forall c c' u v, (forall p l, c p l = c' p l) -> dann_loss c u v = dann_loss c' u v.
Proof. intros c c' u v H. unfold dann_loss. rewrite !H. reflexivity. Qed.

(** The batch: predictions, domain predictions, features, domains, sample numbers, labels. *)
Section Batch.
  Variables (pred features : list (list R)) (sd : list Z) (idx : list nat) (y : list val) (base : base_arg).
  Hypothesis Lp : length pred = length sd.
  Hypothesis Lf : length features = length sd.
  Hypothesis Li : length idx = length sd.
  Hypothesis Ly : length y = length sd.
  Hypothesis Hb : is_class base = false.
  Notation base_loss := (chosen ce_default base (rows_of is_source sd pred) (rows_of is_source sd y)).

Theorem C167_dann : forall reg crit p, length p = length sd -> is_class crit = false ->
  loss (DANN (Some reg) base crit) pred (Some (map (fun x => [x]) p)) (Some features) sd (Some idx) y =
  combined base_loss reg (a <- chosen bce_loss crit (rows_of is_source sd p) (repeat 0%R (how_many is_source sd)) ;;
                          b <- chosen bce_loss crit (rows_of is_target sd p) (repeat 1%R (how_many is_target sd)) ;; Ok (a + b)%R) /\
  loss (CDAN (Some reg) base crit) pred (Some (map (fun x => [x]) p)) (Some features) sd (Some idx) y =
  loss (DANN (Some reg) base crit) pred (Some (map (fun x => [x]) p)) (Some features) sd (Some idx) y.
Proof.
  intros reg crit p Lq Hc. split; [|reflexivity].
  rewrite loss_source; try assumption; try reflexivity; try (intros l E; injection E as <-; try rewrite map_length; assumption).
  cbn [DANN g_base g_reg default g_adapt option_map]. apply combined_ext; [reflexivity|]. cbn [adapt_forward need bind].
  rewrite !rows_of_map, !one_column_map. cbn [bind]. unfold dann_loss. rewrite !call_chosen by exact Hc.
  rewrite (rows_of_length is_source), (rows_of_length is_target) by (now symmetry). reflexivity.
Qed.

Theorem C167_mdd : forall reg gamma d v, length d = length sd ->
  mdd_loss gamma (1 / 10)%R (rows_of is_source sd pred) (rows_of is_target sd pred) (rows_of is_source sd d) (rows_of is_target sd d) = Ok (Some v) ->
  loss (MDD (Some reg) (Some gamma) base) pred (Some d) (Some features) sd (Some idx) y = combined base_loss reg (Ok v).
Proof.
  intros reg gamma d v Ld E. rewrite loss_source; try assumption; try reflexivity; try (intros l E'; injection E' as <-; assumption).
  cbn [MDD g_base g_reg default g_adapt option_map]. apply combined_ext; [reflexivity|]. cbn [adapt_forward need bind]. rewrite E. reflexivity.
Qed.

Theorem C167_divergences : forall reg,
  (forall centered, loss (DeepCoral (Some reg) (Some centered) base) pred None (Some features) sd (Some idx) y =
     combined base_loss reg (Ok (deepcoral_loss (rows_of is_source sd features) (rows_of is_target sd features) centered))) /\
  (forall sigmas, loss (DAN (Some reg) sigmas base) pred None (Some features) sd (Some idx) y =
     combined base_loss reg (Ok (dan_loss (rows_of is_source sd features) (rows_of is_target sd features) sigmas (1 / 10 ^ 7)%R))) /\
  (forall dist cls sigmas k, mapM class_of (rows_of is_source sd y) = Ok k ->
     loss (CAN (Some reg) (Some dist) (Some cls) sigmas base) pred None (Some features) sd (Some idx) y =
     combined base_loss reg (cdd_loss k (rows_of is_source sd features) (rows_of is_target sd features) kmeans sigmas dist cls (1 / 10 ^ 7)%R)) /\
  (forall T, loss (MCC (Some reg) (Some T) base) pred None (Some features) sd (Some idx) y =
     combined base_loss reg (Ok (mcc_loss (rows_of is_target sd pred) T (1 / 10 ^ 7)%R))).
Proof.
  intros reg. repeat split; intros; rewrite loss_source; try assumption; try reflexivity; try discriminate; try (intros l E'; injection E' as <-; assumption).
  cbn [CAN g_base g_reg default g_adapt option_map]. apply combined_ext; [reflexivity|]. cbn [adapt_forward need bind]. rewrite H. reflexivity.
Qed.

Theorem C167_deepjdot : forall reg_dist reg_cl crit,
  loss (DeepJDOT (Some reg_dist) (Some reg_cl) base crit) pred None (Some features) sd (Some idx) y =
  combined base_loss 1 (deepjdot_loss val (match crit with Some c => c | None => fun p v => k <- class_of v ;; cross_entropy p k end) emd2
    (rows_of is_source sd y) (rows_of is_target sd pred) (rows_of is_source sd features) (rows_of is_target sd features) reg_dist reg_cl None None).
Proof.
  intros reg_dist reg_cl crit. rewrite loss_source; try assumption; try reflexivity; try discriminate; try (intros l E'; injection E' as <-; assumption).
Qed.

Theorem C167_spa : forall reg_adv reg_gsa reg_nap crit epochs p, length p = length sd -> is_class crit = false -> 0 < epochs ->
  loss (SPA (Some reg_adv) (Some reg_gsa) (Some reg_nap) base crit (Some epochs)) pred (Some (map (fun x => [x]) p)) (Some features) sd (Some idx) y =
  combined base_loss 1
    (a <- chosen bce_loss crit (rows_of is_source sd p) (repeat 0%R (how_many is_source sd)) ;;
     b <- chosen bce_loss crit (rows_of is_target sd p) (repeat 1%R (how_many is_target sd)) ;;
     g <- gda_loss sv MGauss Lap1 (rows_of is_source sd features) (rows_of is_target sd features) ;;
     q <- nap 5 (rows_of is_target sd features) (rows_of is_target sd pred) (rows_of is_target sd idx) ;;
     Ok (reg_adv * scheduler_adv n_epochs epochs * (a + b) + reg_gsa * g + reg_nap * scheduler_nap n_epochs epochs * q)%R).
Proof.
  intros ra rg rn crit me p Lq Hc He. rewrite loss_source; try assumption; try reflexivity; try discriminate; try (intros l E'; injection E' as <-; try rewrite map_length; assumption).
  cbn [SPA g_base g_reg default g_adapt option_map]. apply combined_ext; [reflexivity|]. cbn [adapt_forward need bind].
  rewrite !rows_of_map, !one_column_map. cbn [bind]. unfold spa_loss. destruct (Nat.eqb_spec me 0) as [Z|_]; [lia|].
  unfold dann_loss. rewrite !call_chosen by exact Hc.
  rewrite (rows_of_length is_source), (rows_of_length is_target) by (now symmetry).
  destruct (chosen bce_loss crit (rows_of is_source sd p) _); [|reflexivity]. cbn [bind].
  destruct (chosen bce_loss crit (rows_of is_target sd p) _); reflexivity.
Qed.

(** Without a regularisation the classifier alone is trained, on its own side. *)
Theorem C167_baselines : loss (SourceOnly base) pred None None sd (Some idx) y = base_loss /\
  loss (TargetOnly base) pred None None sd (Some idx) y = chosen ce_default base (rows_of is_target sd pred) (rows_of is_target sd y).
Proof.
  assert (Z : forall t : tensor, plus_number t (0 * 0)%R = t).
  { intros [s|l]; cbn [plus_number]; [f_equal; ring|]. f_equal. rewrite <- (map_id l) at 2. apply map_ext. intros; ring. }
  split.
  - rewrite loss_source; try assumption; try reflexivity; try discriminate; try (intros l E'; injection E' as <-; assumption).
    cbn [SourceOnly g_base g_reg g_adapt adapt_forward combined]. unfold combined. cbn [adapt_forward]. destruct base_loss as [t|]; [|reflexivity]. cbn [bind]. now rewrite Z.
  - unfold training_loss, criterion_forward. change (fun s => (0 <=? s)%Z) with is_source. cbv zeta.
    assert (E : map negb (map is_source sd) = map is_target sd) by (rewrite map_map; apply map_ext; intros; symmetry; apply is_target_negb).
    rewrite E. rewrite !np_select_ok by (now rewrite map_length).
    rewrite !(opt_select_ok (map is_source sd)) by (intros l Q; try discriminate; injection Q as <-; rewrite map_length; auto).
    rewrite !(opt_select_ok (map is_target sd)) by (intros l Q; try discriminate; injection Q as <-; rewrite map_length; auto). cbn [bind].
    rewrite <- !rows_of_select. cbn [TargetOnly g_target g_base g_reg g_adapt]. rewrite call_chosen by exact Hb.
    destruct (chosen _ _ _ _) as [t|]; [|reflexivity]. cbn [bind adapt_forward]. f_equal. change (plus_number t (0 * 0)%R = t). apply Z.
Qed.
End Batch.

(** The documented default values. *)
Theorem C167_defaults : forall base dc,
  DANN None base dc = DANN (Some 1%R) base dc /\ CDAN None base dc = CDAN (Some 1%R) base dc /\
  MDD None None base = MDD (Some 1%R) (Some 4%R) base /\ DeepCoral None None base = DeepCoral (Some 1%R) (Some false) base /\
  (forall s, DAN None s base = DAN (Some 1%R) s base) /\ (forall s, CAN None None None s base = CAN (Some 1%R) (Some (1 / 2)%R) (Some 3) s base) /\
  (forall c, DeepJDOT None None base c = DeepJDOT (Some 1%R) (Some 1%R) base c) /\ MCC None None base = MCC (Some 1%R) (Some 1%R) base /\
  SPA None None None base dc None = SPA (Some 1%R) (Some 1%R) (Some 1%R) base dc (Some 100).
Proof. intros. repeat split; reflexivity. Qed.
(** The default criterion: the mean cross entropy of the source samples and their classes. *)
Theorem C167_base_default : forall (pred : list (list R)) (classes : list nat), length pred = length classes -> classes <> [] -> Forall2 (fun r k => k < length r) pred classes ->
  ce_default pred (map (fun k => VNum (inject_Z (Z.of_nat k))) classes) =
  Ok (Scalar (mean (map2 (fun r k => ln (vsum (map exp r)) - nth k r 0)%R pred classes))).
Proof.
  intros pred classes L N H. unfold ce_default.
  assert (E : mapM class_of (map (fun k => VNum (inject_Z (Z.of_nat k))) classes) = Ok classes).
  { apply mapM_ok_iff. clear. induction classes as [|k l IH]; cbn [map]; constructor; [|exact IH]. cbn [class_of inject_Z Qden Qnum].
    rewrite Pos.eqb_refl. destruct (Z.leb_spec 0 (Z.of_nat k)); [|lia]. cbn [andb]. now rewrite Nat2Z.id. }
  rewrite E. cbn [bind]. destruct (Nat.eqb_spec (length classes) 0) as [Z|_]; [destruct classes; [congruence|discriminate]|].
  unfold cross_entropy_mean, np_map2. rewrite (proj2 (Nat.eqb_eq _ _) L). cbn [bind].
  assert (M : mapM (fun rt => cross_entropy (fst rt) (snd rt)) (map2 (fun r t => (r, t)) pred classes) = Ok (map2 (fun r k => ln (vsum (map exp r)) - nth k r 0)%R pred classes)).
  { apply mapM_ok_iff. clear - H. induction H as [|r k pred classes Hk H IH]; cbn [map2]; constructor; [|exact IH]. cbn [fst snd]. unfold cross_entropy.
    rewrite (nth_error_nth' r 0%R Hk). reflexivity. }
  rewrite M. reflexivity.
Qed.
End Losses.

(** Two samples of each domain; DAN with one bandwidth: the loss is the base loss of the two sources plus twice the discrepancy. *)
Example C167_ex : training_loss None 0 (fun _ _ => []) (fun _ _ _ => Err ValueError) (fun _ _ _ _ => Err ValueError)
    (DAN (Some 2%R) (Some [1%R]) (GInstance (fun p l => Ok (Scalar (INR (length p + length l))))))
    [[0; 0]; [1; 1]; [2; 2]; [3; 3]]%R None (Some [[0]; [5]; [0]; [5]]%R) [1; -2; 1; -2]%Z (Some [0; 0; 1; 1]) (repeat (VNum 0) 4)
  = Ok (Scalar (4 + 2 * mmd [1%R] [[0]; [0]]%R [[5]; [5]]%R)%R).
Proof.
  pose proof (C167_divergences None 0 (fun _ _ => []) (fun _ _ _ => Err ValueError) (fun _ _ _ _ => Err ValueError)
    [[0; 0]; [1; 1]; [2; 2]; [3; 3]]%R [[0]; [5]; [0]; [5]]%R [1; -2; 1; -2]%Z [0; 0; 1; 1] (repeat (VNum 0) 4)
    (GInstance (fun p l => Ok (Scalar (INR (length p + length l))))) eq_refl eq_refl eq_refl eq_refl eq_refl 2%R) as (_ & H & _).
  rewrite (H (Some [1%R])). unfold combined. cbn [chosen bind plus_number]. apply f_equal. apply f_equal.
  change (INR (length (rows_of is_source [1; -2; 1; -2]%Z [[0; 0]; [1; 1]; [2; 2]; [3; 3]]%R) + length (rows_of is_source [1; -2; 1; -2]%Z (repeat (VNum 0) 4)))) with (INR 4).
  replace (INR 4) with 4%R by (cbn; ring). reflexivity.
Qed.

(** C166: SourceOnly and TargetOnly document layer_name as ignored. The net built with a name that no layer has cannot be trained, the one
    built without a name can, on the same module and the same input. *)
Section Layer.
  Variables W X T F D : Type.
  Variable flatten : T -> res F.
  Notation bases := (h_bases W X T F D).
  Notation mods := (h_mods W X T F D).
  Notation history := (history W X T F D flatten).
  Notation forward := (forward W X T F D flatten).
Theorem C166_layer_ignored_refuted : forall es b ob l x trace y, nth_error (bases (history es)) b = Some ob -> ~ In l (c_layers _ _ _ (b_code _ _ _ ob)) ->
  c_run _ _ _ (b_code _ _ _ ob) (b_w _ _ _ ob) x = (trace, Ok y) -> (forall n t, In (n, t) (trace ++ [(EmptyString, y)]) -> exists g, flatten t = Ok g) ->
  let m := length (mods (history es)) in
  snd (forward true (history (es ++ [ENewModule _ _ _ _ _ b (Some l) None None])) m x false true false) = Err KeyError /\
  snd (forward true (history (es ++ [ENewModule _ _ _ _ _ b None None None])) m x false true false) = Ok (OutFit _ _ _ y None None).
Proof.
  intros es b ob l x trace y Eb Nl Er Hf m.
  assert (Lb : b < length (bases (history es))) by (apply nth_error_Some; congruence).
  assert (H : forall lay, history (es ++ [ENewModule _ _ _ _ _ b lay None None]) = new_module W X T F D (history es) b lay None None).
  { intros lay. unfold NetModel.history. rewrite fold_left_app. cbn [fold_left exec]. fold (history es). destruct (Nat.ltb_spec b (length (bases (history es)))); [reflexivity|lia]. }
  assert (Em : forall lay, nth_error (mods (history (es ++ [ENewModule _ _ _ _ _ b lay None None]))) m = Some (mkMod _ _ _ b lay (length (h_dicts _ _ _ _ _ (history es))) None None)).
  { intros lay. rewrite H, new_module_mods. unfold m. rewrite nth_error_app2 by lia. rewrite Nat.sub_diag. reflexivity. }
  assert (Eb' : forall lay, exists ob', nth_error (bases (history (es ++ [ENewModule _ _ _ _ _ b lay None None]))) b = Some ob' /\ b_code _ _ _ ob' = b_code _ _ _ ob /\ b_w _ _ _ ob' = b_w _ _ _ ob).
  { intros lay. rewrite H. unfold new_module. rewrite register_bases. cbn [h_bases]. rewrite Eb, Nat.eqb_refl. eexists. split; [reflexivity|]. split; reflexivity. }
  split.
  - destruct (Eb' (Some l)) as (ob' & E1 & E2 & E3).
    destruct (C136_unknown_layer W X T F D flatten _ true m _ ob' l x false (Em (Some l)) eq_refl E1) as [_ K]; [rewrite E2; exact Nl|].
    apply (K trace y); [reflexivity | rewrite E2, E3; exact Er | exact Hf].
  - destruct (Eb' None) as (ob' & E1 & E2 & E3). unfold NetModel.forward. rewrite (Em None). cbn [m_cdan forward_plain]. unfold forward_plain, lift. cbn [m_base m_layer m_dc].
    assert (Er' : c_run _ _ _ (b_code _ _ _ ob') (b_w _ _ _ ob') x = (trace, Ok y)) by (rewrite E2, E3; exact Er).
    destruct (call_ok W X T F D flatten true false _ b ob' x trace y E1 Er' (fun A => match Bool.diff_false_true A with end) Hf) as [h1 C]. rewrite C. reflexivity.
Qed.
End Layer.
