(** Theorems on constructors, set_params and clone: C131-C135. *)
From Coq Require Import String List ZArith QArith Bool Arith Lia.
From Verif Require Import Np NpFacts CtorModel CtorSpec.
Import ListNotations.
Local Open Scope nat_scope.
Local Open Scope list_scope.

(** ** Lemmas *)
Lemma seqb a b : String.eqb a b = true <-> a = b.
Proof. apply String.eqb_eq. Qed.
Lemma has_name_iff C k : has_name C k = true <-> In k (names C).
Proof.
  unfold has_name. rewrite existsb_exists. split.
  - intros (x & I & E). apply seqb in E. now subst.
  - intros I. exists k. split; auto. apply String.eqb_refl.
Qed.
Lemma has_name_false C k : has_name C k = false <-> ~ In k (names C).
Proof. rewrite <- has_name_iff. destruct (has_name C k); split; congruence. Qed.
Lemma no_extra C args : all_named (c_params C) args -> filter (fun kv => negb (has_name C (fst kv))) args = [].
Proof.
  unfold all_named. induction args as [|[k v] l IH]; intros H; cbn; auto. rewrite (proj2 (has_name_iff C k)) by (apply (H k v); now left). cbn. apply IH. intros; eapply H; right; eauto.
Qed.
Lemma bind_ok C args : acceptable (c_params C) args -> exists a, bind_args C args = Ok a /\ forall k, a k = setting (c_params C) args k.
Proof.
  intros [H1 H2]. unfold bind_args. rewrite (proj2 (forallb_forall _ _)).
  - eexists. split; [reflexivity|]. intros k. cbn. unfold setting. destruct (dict_get String.eqb k args) eqn:E; auto.
    apply (dict_get_In _ seqb) in E. rewrite (proj2 (has_name_iff C k)); auto. unfold names. eapply H1; eauto.
  - intros [k [d|]] I; cbn; auto. destruct (H2 k I) as [v ->]. auto.
Qed.
Lemma bind_inv C args a : all_named (c_params C) args -> bind_args C args = Ok a -> forall k, a k = setting (c_params C) args k.
Proof.
  intros H1. unfold bind_args. destruct (forallb _ _); [|discriminate]. intros [= <-] k. unfold setting. destruct (dict_get String.eqb k args) eqn:E; auto.
  apply (dict_get_In _ seqb) in E. rewrite (proj2 (has_name_iff C k)); auto. unfold names. eapply H1; eauto.
Qed.
Lemma construct_named C args : all_named (c_params C) args -> construct C args = (a <- bind_args C args ;; c_init C a []).
Proof. intros H. unfold construct. now rewrite no_extra. Qed.
Lemma construct_ok_named C args o : c_varkw C = false -> construct C args = Ok o -> all_named (c_params C) args.
Proof.
  unfold construct. intros V. destruct (filter _ args) as [|x l] eqn:E; [|now rewrite V]. intros _ k v I.
  destruct (has_name C k) eqn:N; [now apply has_name_iff in N|]. assert (J : In (k, v) (filter (fun kv => negb (has_name C (fst kv))) args)) by (apply filter_In; cbn; now rewrite N). rewrite E in J. destruct J.
Qed.

Lemma set_params_ok C : forall kv o, all_named (c_params C) kv ->
  exists o', set_params C o kv = Ok o' /\ o_kwargs o' = o_kwargs o /\ o_inner o' = o_inner o /\
    forall k, o_attr o' k = match dict_get String.eqb k (rev kv) with Some v => Some v | None => o_attr o k end.
Proof.
  induction kv as [|[k v] kv IH]; intros o H; cbn [set_params].
  - exists o. auto.
  - rewrite (proj2 (has_name_iff C k)) by (apply (H k v); now left). destruct (IH (mkObj (upd (o_attr o) k v) (o_kwargs o) (o_inner o))) as (o' & E & K & I & A); [intros a b J; eapply H; right; eauto|].
    exists o'. rewrite E. split; auto. split; [auto|]. split; [auto|]. intros k'. rewrite A. cbn [rev o_attr upd]. unfold upd.
    assert (G : forall (l1 l2 : dict string pv), dict_get String.eqb k' (l1 ++ l2) = match dict_get String.eqb k' l1 with Some v => Some v | None => dict_get String.eqb k' l2 end).
    { intros l1 l2. induction l1 as [|[a b] l1 IHl]; cbn; auto. destruct (String.eqb k' a); auto. }
    rewrite G. destruct (dict_get String.eqb k' (rev kv)); auto. cbn. destruct (String.eqb k' k); auto.
Qed.
Lemma setting_update ps args kv k : setting ps (dict_update String.eqb args kv) k = match dict_get String.eqb k (rev kv) with Some v => Some v | None => setting ps args k end.
Proof. unfold setting. rewrite (dict_get_update _ seqb). destruct (dict_get String.eqb k (rev kv)); auto. Qed.
Lemma dict_set_In' (k : string) (v : pv) d k' v' : In (k', v') (dict_set String.eqb k v d) -> (k' = k) \/ In k' (map fst d).
Proof.
  induction d as [|[a b] d IH]; cbn.
  - intros [[= -> ->]|[]]; auto.
  - destruct (String.eqb k a) eqn:E; cbn.
    + apply seqb in E. subst. intros [[= -> ->]|I]; auto. right. right. apply in_map_iff. now exists (k', v').
    + intros [[= -> ->]|I]; auto. destruct (IH I); auto.
Qed.
Lemma named_update ps args kv : all_named ps args -> all_named ps kv -> all_named ps (dict_update String.eqb args kv).
Proof.
  unfold dict_update. revert args. induction kv as [|[k v] kv IH]; intros args H1 H2; auto. cbn [fold_left fst snd]. apply IH.
  - intros k' v' I. apply dict_set_In' in I as [->|I]; [apply (H2 k v); now left|]. apply in_map_iff in I as ((a, b) & <- & I). eapply H1; eauto.
  - intros a b I. eapply H2. right; eauto.
Qed.
Lemma acceptable_update ps args kv : acceptable ps args -> all_named ps kv -> acceptable ps (dict_update String.eqb args kv).
Proof.
  intros [H1 H2] H3. split; [now apply named_update|]. intros k I. rewrite (dict_get_update _ seqb). destruct (dict_get String.eqb k (rev kv)); eauto.
Qed.

(** get_params gives back the settings, and constructing from them gives them again. *)
Lemma get_params_list_ok a : forall ns, (forall n, In n ns -> exists v, a n = Some v) ->
  exists g, get_params_list a ns = Ok g /\ map fst g = ns /\ forall k v, In (k, v) g -> a k = Some v.
Proof.
  induction ns as [|n ns IH]; intros H; cbn.
  - exists []. repeat split; auto. intros k v [].
  - destruct (H n (or_introl eq_refl)) as [v E]. rewrite E. destruct IH as (g & -> & M & A); [intros; apply H; now right|]. cbn. exists ((n, v) :: g). split; auto. split; [cbn; now f_equal|].
    intros k w [J|I]; auto. injection J as <- <-. exact E.
Qed.
Lemma pv_same_refl v : pv_same v v = true.
Proof. destruct v; cbn; auto. - apply Qeq_bool_iff. reflexivity. - apply String.eqb_refl. - apply Bool.eqb_reflx. - apply Nat.eqb_refl. Qed.

(** Cloning an object whose parameters are all set: the constructor is called with exactly its settings. *)
Lemma clone_spec C o : (forall k, In k (names C) -> exists v, o_attr o k = Some v) ->
  exists g, get_params C o = Ok g /\ acceptable (c_params C) g /\ (forall k, In k (names C) -> setting (c_params C) g k = o_attr o k) /\
    (forall k v, In (k, v) g -> o_attr o k = Some v).
Proof.
  intros H. destruct (get_params_list_ok (o_attr o) (names C) H) as (g & E & M & A). exists g. split; [exact E|]. split.
  - split.
    + intros k v I. unfold names in M. rewrite <- M. apply in_map_iff. now exists (k, v).
    + intros k I. assert (J : In k (map fst g)) by (rewrite M; unfold names; apply in_map_iff; now exists (k, None)).
      destruct (dict_get String.eqb k g) eqn:G; eauto. apply (dict_get_None _ seqb) in G. contradiction.
  - split; auto. intros k J. unfold setting. destruct (dict_get String.eqb k g) eqn:G.
    + apply (dict_get_In _ seqb) in G. symmetry. now apply A.
    + apply (dict_get_None _ seqb) in G. rewrite M in G. contradiction.
Qed.

(** ** C131: set_params and the constructor agree *)

(** The adapters that only store their arguments: after any list of set_params, every attribute has the value the user would
    have got by giving these settings to the constructor. *)
Theorem C131_plain : forall ps args kv o, In ps plain_adapters -> acceptable ps args -> all_named ps kv ->
  construct (plain ps) args = Ok o ->
  exists o1 o2, set_params (plain ps) o kv = Ok o1 /\ construct (plain ps) (dict_update String.eqb args kv) = Ok o2 /\
    forall k, o_attr o1 k = setting ps (dict_update String.eqb args kv) k /\ o_attr o2 k = o_attr o1 k.
Proof.
  intros ps args kv o _ HA HK HC. destruct (set_params_ok (plain ps) kv o HK) as (o1 & E1 & _ & _ & A1).
  rewrite construct_named in HC by (exact (proj1 HA)). destruct (bind_ok (plain ps) args HA) as (a & EB & AB). rewrite EB in HC. cbn in HC. injection HC as <-.
  pose proof (acceptable_update ps args kv HA HK) as HU. destruct (bind_ok (plain ps) _ HU) as (a2 & EB2 & AB2).
  exists o1. eexists. split; [exact E1|]. split; [rewrite construct_named by (exact (proj1 HU)); rewrite EB2; reflexivity|]. intros k. cbn [o_attr].
  rewrite A1, AB2. cbn [o_attr c_params plain]. rewrite setting_update. rewrite AB. auto.
Qed.
Theorem C131_unknown_refused : forall C o k v, ~ In k (names C) -> set_params C o [(k, v)] = Err ValueError.
Proof. intros C o k v H. cbn. now rewrite (proj2 (has_name_false C k)). Qed.
(** REFUTED: NearestNeighborReweightAdapter ignores set_params: whatever is set, fit uses the classifier built by the constructor. *)
Theorem C131_nearest_ignores : forall o kv o1 k, set_params nn_cls o kv = Ok o1 -> In k knn_names -> nn_used o1 k = nn_used o k.
Proof.
  intros o kv o1 k HS HK. assert (E : String.eqb k "laplace_smoothing"%string = false).
  { repeat (destruct HK as [<-|HK]; [reflexivity|]). destruct HK. }
  unfold nn_used. rewrite E. assert (I : o_inner o1 = o_inner o).
  { clear - HS. revert o HS. induction kv as [|[a b] kv IH]; intros o HS; cbn [set_params] in HS; [now injection HS as <-|]. destruct (has_name nn_cls a); [|discriminate]. now apply IH in HS. }
  now rewrite I.
Qed.
Theorem C131_nearest_refuted : exists args kv o o1 o2, construct nn_cls args = Ok o /\ set_params nn_cls o kv = Ok o1 /\
  construct nn_cls (dict_update String.eqb args kv) = Ok o2 /\ get_params nn_cls o1 = get_params nn_cls o2 /\
  nn_used o1 "n_neighbors" = Some (PNum 1) /\ nn_used o2 "n_neighbors" = Some (PNum 5).
Proof. exists [], [("n_neighbors"%string, PNum 5)]. do 3 eexists. repeat (split; [vm_compute; reflexivity|]). vm_compute; reflexivity. Qed.
(** What holds for it: a clone (as pipelines fit) uses the settings; so does laplace_smoothing. *)
Lemma nn_attr_some args o : acceptable (c_params nn_cls) args -> construct nn_cls args = Ok o -> forall k, o_attr o k = setting (c_params nn_cls) args k /\ (In k knn_names -> o_inner o k = setting (c_params nn_cls) args k).
Proof.
  intros HA HC k. rewrite construct_named in HC by (exact (proj1 HA)). destruct (bind_ok nn_cls args HA) as (a & EB & AB). rewrite EB in HC. cbn in HC. injection HC as <-. cbn [o_attr o_inner]. split; [apply AB|].
  intros I. rewrite <- AB. assert (E : existsb (String.eqb k) knn_names = true) by (apply existsb_exists; exists k; split; auto; apply String.eqb_refl). unfold knn_names in E. cbn [existsb] in E. rewrite E. reflexivity.
Qed.
Lemma setting_some ps args k : acceptable ps args -> In k (map fst ps) -> exists v, setting ps args k = Some v.
Proof.
  intros [_ H] I. unfold setting. destruct (dict_get String.eqb k args) eqn:E; eauto. destruct (dict_get String.eqb k ps) as [[d|]|] eqn:D; eauto.
  - apply (dict_get_In _ seqb) in D. destruct (H k D) as [v V]. congruence.
  - apply (dict_get_None _ seqb) in D. contradiction.
Qed.
Theorem C131_nearest_clone : forall args kv o o1, acceptable (c_params nn_cls) args -> all_named (c_params nn_cls) kv ->
  construct nn_cls args = Ok o -> set_params nn_cls o kv = Ok o1 ->
  exists o2, clone nn_cls o1 = Ok o2 /\ forall k, In k (names nn_cls) -> nn_used o2 k = setting (c_params nn_cls) (dict_update String.eqb args kv) k.
Proof.
  intros args kv o o1 HA HK HC HS. destruct (set_params_ok nn_cls kv o HK) as (o1' & E1 & _ & _ & A1). rewrite HS in E1. injection E1 as <-.
  assert (A : forall k, o_attr o1 k = setting (c_params nn_cls) (dict_update String.eqb args kv) k).
  { intros k. rewrite A1, setting_update. destruct (nn_attr_some args o HA HC k) as [-> _]. reflexivity. }
  pose proof (acceptable_update _ _ _ HA HK) as HU.
  destruct (clone_spec nn_cls o1) as (g & EG & HG & SG & IG); [intros k Hk; rewrite A; now apply setting_some|].
  destruct (bind_ok nn_cls g HG) as (a & EB & AB).
  assert (EC : construct nn_cls g = Ok (mkObj a [] (fun k => if existsb (String.eqb k) knn_names then a k else None))) by (rewrite construct_named by (exact (proj1 HG)); rewrite EB; reflexivity).
  unfold clone. rewrite EG. cbn [bind]. rewrite EC. cbn [bind o_attr].
  rewrite (proj2 (forallb_forall _ g)).
  - eexists. split; [reflexivity|]. intros k Hk. rewrite <- A, <- SG by auto. rewrite <- AB. unfold nn_used. destruct (String.eqb k "laplace_smoothing"%string) eqn:L; [reflexivity|]. cbn [o_inner].
    assert (In k knn_names).
    { cbn in Hk. cbn. repeat (destruct Hk as [<-|Hk]; [tauto|]). destruct Hk as [<-|[]]. discriminate. }
    rewrite (proj2 (existsb_exists _ _)); auto. exists k. split; auto. apply String.eqb_refl.
  - intros [k v] I. cbn [fst snd]. rewrite AB, SG, (IG k v I); [apply pv_same_refl|]. unfold names. destruct HG as [HG _]. eapply HG; eauto.
Qed.
(** REFUTED: constructor checks are bypassed by set_params: fit then runs with a regularisation the constructor refuses. *)
Theorem C131_checks_refuted : exists o o1, construct tsl_cls [] = Ok o /\ set_params tsl_cls o [("reg"%string, PNum 2)] = Ok o1 /\
  construct tsl_cls [("reg"%string, PNum 2)] = Err ValueError /\ tsl_used o1 = Ok ("flda"%string, 2%Q).
Proof. do 2 eexists. repeat (split; [vm_compute; reflexivity|]). vm_compute; reflexivity. Qed.
Theorem C131_kernel_check_refuted : exists o o1, construct kmm_cls [] = Ok o /\ set_params kmm_cls o [("kernel"%string, PText "gaussian")] = Ok o1 /\
  construct kmm_cls [("kernel"%string, PText "gaussian")] = Err ValueError.
Proof. do 2 eexists. repeat (split; [vm_compute; reflexivity|]). vm_compute; reflexivity. Qed.
Example C131_example : exists o o1, construct (plain kliep_params) [("gamma"%string, PNum 3)] = Ok o /\
  set_params (plain kliep_params) o [("cv"%string, PNum 2); ("gamma"%string, PNum 7); ("cv"%string, PNum 4)] = Ok o1 /\
  o_attr o1 "gamma"%string = Some (PNum 7) /\ o_attr o1 "cv"%string = Some (PNum 4) /\ o_attr o1 "max_iter"%string = Some (PNum 1000) /\
  acceptable kliep_params [("gamma"%string, PNum 3)] /\ In kliep_params plain_adapters.
Proof.
  do 2 eexists. repeat (split; [vm_compute; reflexivity|]). split; [|cbn; tauto]. split.
  - intros k v [[= <- <-]|[]]. cbn. tauto.
  - intros k I. cbn in I. destruct I as [[= <-]|I]; [eexists; reflexivity|]. repeat (destruct I as [I|I]; [discriminate|]). destruct I.
Qed.

(** ** C132: clone copies the configuration *)

Theorem C132_plain : forall ps args kv o o1, In ps plain_adapters -> acceptable ps args -> all_named ps kv ->
  construct (plain ps) args = Ok o -> set_params (plain ps) o kv = Ok o1 ->
  exists o2, clone (plain ps) o1 = Ok o2 /\ forall k, In k (map fst ps) -> o_attr o2 k = o_attr o1 k.
Proof.
  intros ps args kv o o1 HP HA HK HC HS. destruct (C131_plain ps args kv o HP HA HK HC) as (o1' & o2' & E1 & _ & A). rewrite HS in E1. injection E1 as E1; subst o1'.
  pose proof (acceptable_update _ _ _ HA HK) as HU.
  destruct (clone_spec (plain ps) o1) as (g & EG & HG & SG & IG); [intros k Hk; destruct (A k) as [-> _]; now apply setting_some|].
  destruct (bind_ok (plain ps) g HG) as (a & EB & AB).
  assert (EC : construct (plain ps) g = Ok (mkObj a [] (fun _ => None))) by (rewrite construct_named by (exact (proj1 HG)); rewrite EB; reflexivity).
  unfold clone. rewrite EG. cbn [bind]. rewrite EC. cbn [bind o_attr]. rewrite (proj2 (forallb_forall _ g)).
  - eexists. split; [reflexivity|]. intros k Hk. cbn [o_attr]. rewrite AB. now apply SG.
  - intros [k v] I. cbn [fst snd]. rewrite AB, SG, (IG k v I); [apply pv_same_refl|]. unfold names. destruct HG as [HG _]. eapply HG; eauto.
Qed.
(** REFUTED: the keyword arguments JDOT keeps for the base estimator's fit are lost by clone, so in every pipeline. *)
Theorem C132_jdot_refuted : exists o o2, construct jdot_clf_cls [("sample_weight_policy"%string, PText "x"); ("alpha"%string, PNum 1)] = Ok o /\
  o_kwargs o = [("sample_weight_policy"%string, PText "x")] /\ clone jdot_clf_cls o = Ok o2 /\ o_kwargs o2 = [] /\ o_attr o2 "alpha"%string = Some (PNum 1).
Proof. do 2 eexists. repeat (split; [vm_compute; reflexivity|]). vm_compute; reflexivity. Qed.
(** ... always: a clone of a JDOT estimator has no extra arguments. *)
Theorem C132_jdot_loses : forall C o o2, C = jdot_clf_cls \/ C = jdot_reg_cls -> clone C o = Ok o2 -> o_kwargs o2 = [].
Proof.
  intros C o o2 HC. unfold clone. destruct (get_params C o) as [g|] eqn:EG; [|discriminate]. cbn [bind]. destruct (construct C g) as [o'|] eqn:EC; [|discriminate]. cbn [bind].
  destruct (forallb _ g); [|discriminate]. intros [= <-].
  assert (N : all_named (c_params C) g).
  { clear - EG. unfold get_params in EG. unfold all_named. fold (names C). revert g EG. assert (S : forall ns g, (forall n, In n ns -> In n (names C)) -> get_params_list (o_attr o) ns = Ok g -> forall k v, In (k, v) g -> In k (names C)).
    { induction ns as [|n ns IH]; cbn; intros g H E k v I; [injection E as <-; destruct I|]. destruct (o_attr o n); [|discriminate]. destruct (get_params_list (o_attr o) ns) as [r|] eqn:R; [|discriminate]. cbn in E. injection E as <-.
      destruct I as [[= <- <-]|I]; auto. eapply IH; eauto. }
    intros g EG. apply (S (names C)); auto. }
  rewrite construct_named in EC by auto. destruct (bind_args C g) as [a|]; [|discriminate]. cbn [bind] in EC.
  destruct HC as [-> | ->]; cbn [c_init jdot_clf_cls jdot_reg_cls] in EC; unfold jdot_init in EC; destruct (a "base_estimator"%string) as [[]|]; try discriminate;
    try (injection EC as <-; reflexivity); destruct (e_fit e && e_predict e); try discriminate; injection EC as <-; reflexivity.
Qed.
(** REFUTED: a parameter set to None afterwards (as in the constructor's signature) makes the estimator impossible to clone. *)
Theorem C132_none_refuted : exists o o1 p p1, construct density_cls [] = Ok o /\ set_params density_cls o [("weight_estimator"%string, PNone)] = Ok o1 /\ clone density_cls o1 = Err RuntimeError /\
  construct tsl_cls [("reg"%string, PNone)] = Ok p /\ set_params tsl_cls p [("reg"%string, PNone)] = Ok p1 /\ clone tsl_cls p1 = Err RuntimeError.
Proof. do 4 eexists. repeat (split; [vm_compute; reflexivity|]). vm_compute; reflexivity. Qed.
(** What holds: an estimator that has just been constructed can be cloned, and the clone has its parameters (all the classes). *)
Lemma truth_kept v d w : py_or v d = Ok w -> (w = v /\ truth v = Ok true) \/ w = d.
Proof. unfold py_or. destruct (truth v) as [[]|]; cbn; [|right; congruence|discriminate]. intros [= <-]. auto. Qed.
Lemma setting_names C args k : all_named (c_params C) args -> setting (c_params C) args k <> None -> In k (names C).
Proof.
  intros H. unfold setting. destruct (dict_get String.eqb k args) eqn:E.
  - intros _. apply (dict_get_In _ seqb) in E. unfold names. eapply H; eauto.
  - destruct (dict_get String.eqb k (c_params C)) eqn:D; [|congruence]. intros _. apply (dict_get_In _ seqb) in D. unfold names. apply in_map_iff. now exists (k, o).
Qed.
(** A constructor is settled when running it on the parameters of one of its objects gives these parameters back. *)
Lemma clone_settled C args o : c_varkw C = false -> construct C args = Ok o -> acceptable (c_params C) args ->
  (forall k, In k (names C) -> exists v, o_attr o k = Some v) ->
  (forall a, (forall k, In k (names C) -> a k = o_attr o k) -> exists o', c_init C a [] = Ok o' /\ forall k, In k (names C) -> o_attr o' k = a k) ->
  exists o2, clone C o = Ok o2 /\ forall k, In k (names C) -> o_attr o2 k = o_attr o k.
Proof.
  intros V HC HA HS HI. destruct (clone_spec C o HS) as (g & EG & HG & SG & IG). destruct (bind_ok C g HG) as (a & EB & AB).
  destruct (HI a) as (o' & EI & AI); [intros k Hk; rewrite AB; auto|].
  assert (EC : construct C g = Ok o') by (rewrite construct_named by (exact (proj1 HG)); rewrite EB; exact EI).
  unfold clone. rewrite EG. cbn [bind]. rewrite EC. cbn [bind]. rewrite (proj2 (forallb_forall _ g)).
  - exists o'. split; auto. intros k Hk. rewrite AI, AB by auto. auto.
  - intros [k v] I. cbn [fst snd]. assert (Hk : In k (names C)) by (unfold names; destruct HG as [HG _]; eapply HG; eauto). rewrite AI, AB, SG, (IG k v I) by auto. apply pv_same_refl.
Qed.
Definition checked_classes := [kmm_cls; nn_cls; density_cls; discriminator_cls; tsl_cls].
Theorem C132_fresh_clone : forall C args o, In C checked_classes -> construct C args = Ok o -> acceptable (c_params C) args ->
  exists o2, clone C o = Ok o2 /\ forall k, In k (names C) -> o_attr o2 k = o_attr o k.
Proof.
  intros C args o HC E HA. pose proof E as E0. rewrite construct_named in E by (exact (proj1 HA)). destruct (bind_ok C args HA) as (a & EB & AB). rewrite EB in E. cbn [bind] in E.
  assert (SS : forall k, In k (names C) -> exists v, a k = Some v) by (intros k Hk; rewrite AB; now apply setting_some).
  destruct HC as [<-|[<-|[<-|[<-|[<-|[]]]]]].
  - cbn [c_init kmm_cls] in E. destruct (a "kernel"%string) as [[]|] eqn:K; try discriminate. destruct (existsb (String.eqb s) kernel_names) eqn:X; [|discriminate]. injection E as <-.
    apply (clone_settled _ args); auto. intros a' Ha'. cbn [c_init kmm_cls]. rewrite Ha' by (cbn; tauto). cbn [o_attr]. rewrite K, X. eexists. split; [reflexivity|]. auto.
  - cbn [c_init nn_cls] in E. injection E as <-. apply (clone_settled _ args); auto. intros a' Ha'. eexists. split; [reflexivity|]. auto.
  - apply (clone_settled _ args); auto; cbn [c_init density_cls or_cls] in E; destruct (a "weight_estimator"%string) as [v|] eqn:K; try discriminate; destruct (py_or v (PEst kernel_density)) as [w|] eqn:P; try discriminate; cbn [bind] in E; injection E as <-; cbn [o_attr].
    + intros k [<-|[]]. exists w. reflexivity.
    + intros a' Ha'. cbn [c_init density_cls or_cls]. rewrite (Ha' "weight_estimator"%string) by (cbn; tauto). unfold upd at 1. rewrite String.eqb_refl.
      assert (Q : py_or w (PEst kernel_density) = Ok w) by (apply truth_kept in P as [[-> T]| ->]; [unfold py_or; now rewrite T|reflexivity]).
      rewrite Q. cbn [bind]. eexists. split; [reflexivity|]. intros k [<-|[]]. symmetry. exact (Ha' "weight_estimator"%string (or_introl eq_refl)).
  - apply (clone_settled _ args); auto; cbn [c_init discriminator_cls or_cls] in E; destruct (a "domain_classifier"%string) as [v|] eqn:K; try discriminate; destruct (py_or v (PEst logistic)) as [w|] eqn:P; try discriminate; cbn [bind] in E; injection E as <-; cbn [o_attr].
    + intros k [<-|[]]. exists w. reflexivity.
    + intros a' Ha'. cbn [c_init discriminator_cls or_cls]. rewrite (Ha' "domain_classifier"%string) by (cbn; tauto). unfold upd at 1. rewrite String.eqb_refl.
      assert (Q : py_or w (PEst logistic) = Ok w) by (apply truth_kept in P as [[-> T]| ->]; [unfold py_or; now rewrite T|reflexivity]).
      rewrite Q. cbn [bind]. eexists. split; [reflexivity|]. intros k [<-|[]]. symmetry. exact (Ha' "domain_classifier"%string (or_introl eq_refl)).
  - cbn [c_init tsl_cls] in E. unfold tsl_init in E. destruct (a "base_method"%string) as [[| |m| |]|] eqn:M; try discriminate. destruct (existsb (String.eqb m) _) eqn:X; [|discriminate].
    destruct (a "reg"%string) as [[|q| | |]|] eqn:G; try discriminate.
    + injection E as <-. apply (clone_settled _ args); auto.
      * intros k Hk. cbn [o_attr]. unfold upd. destruct (String.eqb k "reg"%string); eauto.
      * intros a' Ha'. cbn [c_init tsl_cls]. unfold tsl_init. rewrite (Ha' "base_method"%string), (Ha' "reg"%string) by (cbn; tauto). cbn [o_attr]. unfold upd at 1. change (String.eqb "base_method" "reg") with false. cbv iota. rewrite M, X.
        unfold upd at 1. rewrite String.eqb_refl. cbn. eexists. split; [reflexivity|]. auto.
    + destruct (negb (Qle_bool 0 q) || negb (Qle_bool q 1)) eqn:B; [discriminate|]. injection E as <-. apply (clone_settled _ args); auto.
      intros a' Ha'. cbn [c_init tsl_cls]. unfold tsl_init. rewrite (Ha' "base_method"%string), (Ha' "reg"%string) by (cbn; tauto). cbn [o_attr]. rewrite M, X, G, B. eexists. split; [reflexivity|]. auto.
Qed.
Example C132_example : exists o o2, construct tsl_cls [("reg"%string, PNone); ("base_method"%string, PText "pca")] = Ok o /\ clone tsl_cls o = Ok o2 /\
  o_attr o2 "reg"%string = Some (PNum 0) /\ o_attr o2 "base_method"%string = Some (PText "pca") /\ In tsl_cls checked_classes.
Proof. do 2 eexists. repeat (split; [vm_compute; reflexivity|]). cbn. tauto. Qed.

(** ** C133: unknown constructor arguments are refused *)

Theorem C133_unknown_refused : forall C args k v, In C checked_classes \/ (exists ps, In ps plain_adapters /\ C = plain ps) ->
  In (k, v) args -> ~ In k (names C) -> construct C args = Err TypeError.
Proof.
  intros C args k v HC I N. assert (V : c_varkw C = false).
  { destruct HC as [HC|(ps & _ & ->)]; [|reflexivity]. repeat (destruct HC as [<-|HC]; [reflexivity|]). destruct HC. }
  unfold construct. destruct (filter _ args) as [|x l] eqn:E; [|now rewrite V].
  assert (J : In (k, v) (filter (fun kv => negb (has_name C (fst kv))) args)) by (apply filter_In; cbn; now rewrite (proj2 (has_name_false C k) N)). rewrite E in J. destruct J.
Qed.
Theorem C133_missing_refused : forall C args k, In (k, None) (c_params C) -> dict_get String.eqb k args = None -> construct C args = Err TypeError.
Proof.
  intros C args k I N. assert (B : bind_args C args = Err TypeError).
  { unfold bind_args. destruct (forallb _ _) eqn:F; auto. rewrite forallb_forall in F. specialize (F _ I). cbn in F. now rewrite N in F. }
  unfold construct. rewrite B. destruct (filter _ args); [reflexivity|]. now destruct (c_varkw C).
Qed.
(** REFUTED: DASVMClassifier accepts any extra argument and drops it: a misspelt option changes nothing and raises nothing. *)
Theorem C133_dasvm_refuted : exists o, construct dasvm_cls [("max_iters"%string, PNum 5)] = Ok o /\ ~ In "max_iters"%string (names dasvm_cls) /\ o_attr o "max_iter"%string = Some (PNum 1000) /\ o_kwargs o = [].
Proof. eexists. split; [vm_compute; reflexivity|]. split; [|split; reflexivity]. cbn. intros H. repeat (destruct H as [H|H]; [discriminate|]). destruct H. Qed.
Theorem C133_dasvm_drops : forall args o, construct dasvm_cls args = Ok o -> o_kwargs o = [] /\
  exists o', construct dasvm_cls (filter (fun kv => has_name dasvm_cls (fst kv)) args) = Ok o' /\ forall k, In k (names dasvm_cls) -> o_attr o' k = o_attr o k.
Proof.
  intros args o H.
  assert (D : forall k, In k (names dasvm_cls) -> dict_get String.eqb k (filter (fun kv => has_name dasvm_cls (fst kv)) args) = dict_get String.eqb k args).
  { intros k Hk. clear H. induction args as [|[a b] l IH]; cbn [filter]; auto. cbn [fst]. destruct (has_name dasvm_cls a) eqn:E; cbn [dict_get].
    - destruct (String.eqb k a); auto.
    - destruct (String.eqb k a) eqn:K; auto. apply seqb in K. subst. apply has_name_false in E. contradiction. }
  assert (N : all_named (c_params dasvm_cls) (filter (fun kv => has_name dasvm_cls (fst kv)) args)).
  { intros k v I. apply filter_In in I as [_ I]. now apply has_name_iff in I. }
  assert (HB : exists a, bind_args dasvm_cls args = Ok a /\ exists kw, c_init dasvm_cls a kw = Ok o).
  { unfold construct in H. destruct (bind_args dasvm_cls args) as [a|] eqn:B; destruct (filter _ args); cbn in H; try discriminate; exists a; (split; [reflexivity|]); exists []; exact H. }
  destruct HB as (a & B & kw & I). rewrite construct_named by exact N.
  assert (HA : acceptable (c_params dasvm_cls) (filter (fun kv => has_name dasvm_cls (fst kv)) args)).
  { split; [exact N|]. intros k J. cbn in J. repeat (destruct J as [J|J]; [discriminate|]). destruct J. }
  destruct (bind_ok dasvm_cls _ HA) as (a2 & B2 & A2). rewrite B2. cbn [bind].
  assert (AA : forall k, In k (names dasvm_cls) -> a2 k = a k).
  { intros k Hk. rewrite A2. unfold setting. rewrite D by auto. unfold bind_args in B. destruct (forallb _ _); [|discriminate]. injection B as <-. rewrite (proj2 (has_name_iff dasvm_cls k) Hk). reflexivity. }
  cbn [c_init dasvm_cls] in I |- *. rewrite (AA "base_estimator"%string) by (cbn; tauto).
  destruct (a "base_estimator"%string) as [[]|] eqn:K; injection I as <-; (split; [reflexivity|]); eexists; (split; [reflexivity|]); intros k Hk; cbn [o_attr]; try (unfold upd; destruct (String.eqb k "base_estimator"%string); auto); apply AA; auto.
Qed.
Example C133_example : construct (plain kliep_params) [("gamma"%string, PNum 1); ("n_center"%string, PNum 5)] = Err TypeError /\ construct (plain kliep_params) [] = Err TypeError
  /\ In ("gamma"%string, None) kliep_params.
Proof. repeat split. cbn. tauto. Qed.

(** ** C134: any estimator can be given *)

(** REFUTED: the truth value of an unfitted ensemble is an error: it cannot be given as density estimator, domain classifier or
    base estimator of the gradual adaptation. *)
Definition forest : est := mkEst 7 (Some (Err AttributeError)) true true.
Theorem C134_ensemble_refuted : construct discriminator_cls [("domain_classifier"%string, PEst forest)] = Err AttributeError /\
  construct density_cls [("weight_estimator"%string, PEst forest)] = Err AttributeError /\ gradual_base (PEst forest) = Err AttributeError.
Proof. repeat split. Qed.
(** What holds: an estimator whose class has no length is used as it is, None is replaced by the default. *)
Theorem C134_plain_estimator : forall e, e_len e = None ->
  (exists o, construct discriminator_cls [("domain_classifier"%string, PEst e)] = Ok o /\ o_attr o "domain_classifier"%string = Some (PEst e)) /\
  (exists o, construct density_cls [("weight_estimator"%string, PEst e)] = Ok o /\ o_attr o "weight_estimator"%string = Some (PEst e)) /\
  gradual_base (PEst e) = Ok (PEst e).
Proof.
  intros e H. assert (T : truth (PEst e) = Ok true) by (cbn; now rewrite H).
  assert (P : forall d, py_or (PEst e) d = Ok (PEst e)) by (intros; unfold py_or; now rewrite T).
  split; [|split].
  - eexists. split; [cbn -[py_or]; rewrite P; reflexivity|reflexivity].
  - eexists. split; [cbn -[py_or]; rewrite P; reflexivity|reflexivity].
  - unfold gradual_base. now rewrite T.
Qed.
(** A fitted estimator with a length is used as it is when the length is positive and silently replaced by the default when it is zero. *)
Theorem C134_length : forall e n, e_len e = Some (Ok n) ->
  let used d := if 0 <? n then PEst e else PEst d in
  (exists o, construct discriminator_cls [("domain_classifier"%string, PEst e)] = Ok o /\ o_attr o "domain_classifier"%string = Some (used logistic)) /\
  (exists o, construct density_cls [("weight_estimator"%string, PEst e)] = Ok o /\ o_attr o "weight_estimator"%string = Some (used kernel_density)) /\
  gradual_base (PEst e) = Ok (used mlp).
Proof.
  intros e n H. assert (T : truth (PEst e) = Ok (0 <? n)) by (cbn; now rewrite H).
  assert (P : forall d, py_or (PEst e) d = Ok (if 0 <? n then PEst e else d)) by (intros; unfold py_or; now rewrite T).
  cbv zeta. split; [|split].
  - eexists. split; [cbn -[py_or Nat.ltb]; rewrite P; reflexivity|]. reflexivity.
  - eexists. split; [cbn -[py_or Nat.ltb]; rewrite P; reflexivity|]. reflexivity.
  - unfold gradual_base. now rewrite T.
Qed.
Theorem C134_default : (exists o, construct discriminator_cls [] = Ok o /\ o_attr o "domain_classifier"%string = Some (PEst logistic)) /\
  (exists o, construct density_cls [] = Ok o /\ o_attr o "weight_estimator"%string = Some (PEst kernel_density)) /\ gradual_base PNone = Ok (PEst mlp) /\
  (exists o, construct dasvm_cls [] = Ok o /\ o_attr o "base_estimator"%string = Some (PEst svc)) /\
  (exists o, construct jdot_reg_cls [] = Ok o /\ o_attr o "base_estimator"%string = Some (PEst linear_regression)) /\
  (exists o, construct jdot_clf_cls [] = Ok o /\ o_attr o "base_estimator"%string = Some (PEst logistic)).
Proof. repeat (split; [(eexists; split; reflexivity) || reflexivity|]). eexists; split; reflexivity. Qed.
(** JDOT and DASVM compare with None instead: every estimator (JDOT: with fit and predict) is used as it is. *)
Theorem C134_identity_test : forall e,
  (exists o, construct dasvm_cls [("base_estimator"%string, PEst e)] = Ok o /\ o_attr o "base_estimator"%string = Some (PEst e)) /\
  (forall C, C = jdot_clf_cls \/ C = jdot_reg_cls ->
     (e_fit e = true -> e_predict e = true -> exists o, construct C [("base_estimator"%string, PEst e)] = Ok o /\ o_attr o "base_estimator"%string = Some (PEst e)) /\
     (e_fit e = false \/ e_predict e = false -> construct C [("base_estimator"%string, PEst e)] = Err ValueError)).
Proof.
  intros e. split; [eexists; split; reflexivity|]. intros C [-> | ->]; split.
  1,3: intros F P; eexists; split; [cbn; rewrite F, P; reflexivity|reflexivity].
  all: intros [F|P]; cbn; [rewrite F|rewrite P; rewrite andb_false_r]; reflexivity.
Qed.
Example C134_example : exists o, construct jdot_clf_cls [("base_estimator"%string, PEst forest)] = Ok o /\ o_attr o "base_estimator"%string = Some (PEst forest).
Proof. eexists. split; reflexivity. Qed.

Lemma NoDup_app_snoc {A} (l : list A) a : NoDup l -> ~ In a l -> NoDup (l ++ [a]).
Proof. intros H N. apply (Permutation.Permutation_NoDup (l := a :: l)); [apply Permutation.Permutation_cons_append|now constructor]. Qed.

(** ** C135: pipelines do not share their default estimator *)

Lemma run_app st d h ops o : run st d h (ops ++ [o]) = step st d (run st d h ops) o.
Proof. unfold run. now rewrite fold_left_app. Qed.
Lemma own_app default p o : forall ops n d, own_settings default n p (ops ++ [o]) d = own_settings default (n + built ops) p [o] (own_settings default n p ops d).
Proof.
  induction ops as [|[|q k v] ops IH]; intros n d; cbn [app built].
  - cbn [own_settings]. now rewrite Nat.add_0_r.
  - cbn [own_settings]. rewrite IH. cbn [own_settings]. now rewrite Nat.add_succ_comm.
  - cbn [own_settings]. now rewrite IH.
Qed.
Lemma built_app o : forall ops, built (ops ++ [o]) = built ops + built [o].
Proof. induction ops as [|[|q k v] ops IH]; [destruct o; reflexivity| |]; cbn [app]; [change (S (built (ops ++ [o])) = S (built ops) + built [o])|change (built (ops ++ [o]) = built ops + built [o])]; rewrite IH; lia. Qed.
(** A default created by each call: after every history of calls and set_params each pipeline has the default settings with the
    changes made to that very pipeline. *)
Theorem C135_per_call : forall default h ops p, p < built ops ->
  exists a, nth_error (fst (run PerCall default h ops)) p = Some a /\ h_val (snd (run PerCall default h ops)) a = own_settings default 0 p ops [].
Proof.
  intros default h ops.
  assert (G : let s := run PerCall default h ops in length (fst s) = built ops /\ NoDup (fst s) /\ (forall a, In a (fst s) -> a < h_next (snd s)) /\
    forall p, p < built ops -> exists a, nth_error (fst s) p = Some a /\ h_val (snd s) a = own_settings default 0 p ops []).
  { induction ops as [|o ops IH] using rev_ind.
    - cbn. repeat split; auto; [constructor|intros a []|intros; lia].
    - rewrite run_app. cbv zeta in IH |- *. destruct (run PerCall default h ops) as [ps hp] eqn:E. cbn [fst snd] in IH. destruct IH as (L & ND & B & V). rewrite built_app.
      destruct o as [|q k v]; cbn [step build alloc].
      + cbn [fst snd built]. split; [rewrite app_length, L; cbn; lia|]. split.
        { apply NoDup_app_snoc; auto. intros I. apply B in I. lia. }
        split; [intros a I; cbn [h_next]; apply in_app_or in I as [I|[<-|[]]]; [apply B in I; lia|lia]|].
        intros p Hp. destruct (Nat.eq_dec p (built ops)) as [->|Np].
        * exists (h_next hp). split; [rewrite nth_error_app2 by lia; rewrite L, Nat.sub_diag; reflexivity|]. cbn [h_val]. rewrite Nat.eqb_refl, own_app. cbn [own_settings]. rewrite Nat.add_0_l, Nat.eqb_refl. reflexivity.
        * destruct (V p ltac:(lia)) as (a & N & VA). exists a. split; [rewrite nth_error_app1 by lia; exact N|]. cbn [h_val]. assert (a < h_next hp) by (apply B; eapply nth_error_In; eauto).
          rewrite (proj2 (Nat.eqb_neq a (h_next hp))) by lia. rewrite VA, own_app. cbn [own_settings]. now rewrite (proj2 (Nat.eqb_neq (0 + built ops) p)) by lia.
      + cbn [built]. rewrite Nat.add_0_r. destruct (nth_error ps q) as [b|] eqn:Q; cbn [fst snd].
        * split; auto. split; auto. split; auto. intros p Hp. destruct (V p Hp) as (a & N & VA). exists a. split; auto. cbn [heap_set h_val]. rewrite own_app. cbn [own_settings]. rewrite Nat.add_0_l, (proj2 (Nat.ltb_lt p (built ops)) Hp), andb_true_r, <- VA.
          destruct (Nat.eqb_spec q p) as [->|Nq]; [rewrite N in Q; injection Q as ->; now rewrite Nat.eqb_refl|].
          rewrite (proj2 (Nat.eqb_neq a b)); auto. intros ->. apply Nq. rewrite NoDup_nth_error in ND. symmetry. apply ND; [lia|]. now rewrite N, Q.
        * split; auto. split; auto. split; auto. intros p Hp. destruct (V p Hp) as (a & N & VA). exists a. split; auto. rewrite own_app. cbn [own_settings]. apply nth_error_None in Q.
          rewrite (proj2 (Nat.eqb_neq q p)) by lia. exact VA. }
  cbv zeta in G. destruct G as (_ & _ & _ & G). exact G.
Qed.
Theorem C135_fresh : forall default h ops, exists a, nth_error (fst (run PerCall default h (ops ++ [Build]))) (built ops) = Some a /\
  h_val (snd (run PerCall default h (ops ++ [Build]))) a = default.
Proof.
  intros default h ops. destruct (C135_per_call default h (ops ++ [Build]) (built ops)) as (a & N & V); [rewrite built_app; cbn; lia|]. exists a. split; auto. rewrite V, own_app. cbn [own_settings]. now rewrite Nat.add_0_l, Nat.eqb_refl.
Qed.
(** REFUTED for ClassRegularizerOTMapping: its default estimator is created once, when the module is loaded; a parameter set on
    one pipeline is the default of all the later (and earlier) ones. *)
Theorem C135_class_reg_refuted : exists default h ops, let (st, h') := at_import default h in
  exists a, nth_error (fst (run st default h' (ops ++ [Build]))) (built ops) = Some a /\ h_val (snd (run st default h' (ops ++ [Build]))) a <> default.
Proof.
  exists [("kernel"%string, PText "rbf"); ("C"%string, PNum 1)], (mkHeap 0 (fun _ => [])), [Build; SetParam 0 "C" (PNum 10)]. cbn [at_import alloc]. eexists. split; [reflexivity|]. vm_compute. discriminate.
Qed.
Theorem C135_class_reg_shared : forall default h ops, let (st, h') := at_import default h in
  forall p q a b, nth_error (fst (run st default h' ops)) p = Some a -> nth_error (fst (run st default h' ops)) q = Some b -> a = b.
Proof.
  intros default h ops. cbn [at_import alloc]. set (h' := mkHeap _ _). assert (G : forall a, In a (fst (run (AtImport (h_next h)) default h' ops)) -> a = h_next h).
  { induction ops as [|o ops IH] using rev_ind; [intros a []|]. rewrite run_app. destruct (run (AtImport (h_next h)) default h' ops) as [ps hp]. destruct o as [|q k v]; cbn [step build fst].
    - intros a I. apply in_app_or in I as [I|[<-|[]]]; auto.
    - destruct (nth_error ps q); exact IH. }
  intros p q a b A B. rewrite (G a), (G b); auto; eapply nth_error_In; eauto.
Qed.
Example C135_example : let d := [("C"%string, PNum 1)] in let ops := [Build; SetParam 0 "C" (PNum 10); Build; SetParam 1 "C" (PNum 3); SetParam 0 "C" (PNum 4); SetParam 5 "C" (PNum 7)] in
  built ops = 2 /\ own_settings d 0 0 ops [] = [("C"%string, PNum 4)] /\ own_settings d 0 1 ops [] = [("C"%string, PNum 3)].
Proof. repeat split. Qed.
