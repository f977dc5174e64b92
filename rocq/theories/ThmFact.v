(** Theorem C160: the shorthands that build pipelines. *)
From Coq Require Import String List ZArith QArith Bool Arith Lia.
From Verif Require Import Np NpFacts CtorModel CtorSpec ThmCtor FactModel FactSpec.
Import ListNotations.
Local Open Scope list_scope.
Local Open Scope string_scope.

(** The arguments passed on. *)
Lemma passed_get (a : attrs) ps k : dict_get String.eqb k (flat_map (fun p => match a p with Some v => [(p, v)] | None => [] end) ps) =
  if existsb (String.eqb k) ps then a k else None.
Proof.
  induction ps as [|p ps IH]; [reflexivity|]. cbn [flat_map existsb]. destruct (String.eqb_spec k p) as [->|N]; cbn [orb].
  - destruct (a p) eqn:E; cbn; [now rewrite String.eqb_refl|]. rewrite IH. destruct (existsb _ ps); congruence.
  - destruct (a p); cbn; [|exact IH]. destruct (String.eqb_spec k p); [congruence|exact IH].
Qed.
(** Checked for every shorthand: arguments passed on are parameters of both, in the order of neither; no parameter is left out
    apart from base_estimator. *)
Definition well_formed (f : factory) : bool :=
  forallb (fun p => existsb (String.eqb p) (map fst (f_params f)) && has_name (f_cls f) p) (f_passed f) &&
  forallb (fun p => String.eqb p "base_estimator" || existsb (String.eqb p) (f_passed f)) (map fst (f_params f)) &&
  negb (c_varkw (f_cls f)).
Lemma all_well_formed n f : provided n f -> well_formed f = true.
Proof. unfold provided, factories. intros H. repeat (destruct H as [H|H]; [injection H as <- <-; reflexivity|]). destruct H. Qed.
(** What the constructors of the adapters store. *)
Lemma stores n f : provided n f -> forall a o, c_init (f_cls f) a [] = Ok o ->
  forall k v, a k = Some v -> v <> PNone -> (takes_estimator k -> truth v = Ok true) -> o_attr o k = Some v.
Proof.
  assert (P : forall ps a o, c_init (plain ps) a [] = Ok o -> o_attr o = a) by (intros ps a o H; injection H as <-; reflexivity).
  assert (E : forall nm de a o, takes_estimator nm -> c_init (or_cls nm de) a [] = Ok o -> forall k v, a k = Some v -> v <> PNone ->
    (takes_estimator k -> truth v = Ok true) -> o_attr o k = Some v).
  { intros nm de a o TE H k v A NV T. cbn in H. destruct (a nm) as [w|] eqn:W; [|discriminate]. unfold py_or in H. destruct (truth w) as [t|] eqn:B; [|discriminate].
    injection H as <-. cbn. unfold upd. destruct (String.eqb_spec k nm) as [->|]; [|exact A]. rewrite A in W. injection W as <-. rewrite (T TE) in B. now injection B as <-. }
  unfold provided, factories. intros H a o I k v A NV T.
  repeat (destruct H as [H|H]; [injection H as <- <-; try (rewrite (P _ _ _ I); exact A)|]); [.. |destruct H].
  - exact (E "weight_estimator" _ a o (or_introl eq_refl) I k v A NV T).
  - exact (E "domain_classifier" _ a o (or_intror eq_refl) I k v A NV T).
  - cbn in I. injection I as <-. exact A.
  - cbn in I. destruct (a "kernel") as [[| |s| |]|]; try discriminate. match type of I with (if ?c then _ else _) = _ => destruct c; [|discriminate] end. injection I as <-. exact A.
  - cbn in I. unfold tsl_init in I. destruct (a "base_method") as [[| |s| |]|]; try discriminate. destruct (existsb _ _); [|discriminate].
    destruct (a "reg") as [[|q| | |]|] eqn:R; try discriminate.
    + injection I as <-. cbn. unfold upd. destruct (String.eqb_spec k "reg") as [->|]; [congruence|exact A].
    + destruct (_ || _); [discriminate|]. injection I as <-. exact A.
Qed.

Lemma passed_on n f args o b : provided n f -> shorthand f args = Ok (o, b) ->
  all_named (f_params f) args /\
  exists a, c_init (f_cls f) a [] = Ok o /\
    (forall k, In k (f_passed f) -> a k = match setting (f_params f) args k with Some v => Some v | None => setting (c_params (f_cls f)) [] k end) /\
    (forall k, ~ In k (f_passed f) -> a k = setting (c_params (f_cls f)) [] k) /\
    b = match setting (f_params f) args "base_estimator" with Some PNone | None => PEst (f_base f) | Some v => v end.
Proof.
  intros P H. pose proof (all_well_formed n f P) as W. unfold well_formed in W. apply andb_true_iff in W as [W V]. apply andb_true_iff in W as [W1 W2].
  apply negb_true_iff in V. rewrite forallb_forall in W1. unfold shorthand in H.
  destruct (construct _ args) as [s|] eqn:Cs; [|discriminate]. cbn [bind] in H.
  assert (NA : all_named (f_params f) args) by (exact (construct_ok_named (mkCls (f_params f) false _) args s eq_refl Cs)). split; [exact NA|].
  rewrite construct_named in Cs by exact NA. destruct (bind_args _ args) as [a0|] eqn:B0; [|discriminate]. cbn in Cs. injection Cs as <-. cbn [o_attr] in H.
  pose proof (bind_inv (mkCls (f_params f) false _) args a0 NA B0) as S0. cbn [c_params] in S0.
  destruct (construct (f_cls f) _) as [o'|] eqn:Co; [|discriminate]. cbn [bind] in H. injection H as -> <-.
  pose proof (construct_ok_named _ _ _ V Co) as NB. rewrite construct_named in Co by exact NB.
  destruct (bind_args (f_cls f) _) as [a1|] eqn:B1; [|discriminate]. cbn [bind] in Co. exists a1. split; [exact Co|].
  pose proof (bind_inv _ _ _ NB B1) as S1.
  assert (IN : forall k, existsb (String.eqb k) (f_passed f) = true <-> In k (f_passed f)).
  { intros k. rewrite existsb_exists. split; [intros (x & I & E); apply String.eqb_eq in E; now subst|intros I; exists k; split; [exact I|apply String.eqb_refl]]. }
  split; [|split].
  - intros k I. rewrite S1. unfold setting at 1. rewrite passed_get, (proj2 (IN k) I), S0. now destruct (setting (f_params f) args k).
  - intros k I. rewrite S1. unfold setting at 1. rewrite passed_get. destruct (existsb (String.eqb k) (f_passed f)) eqn:E; [apply IN in E; contradiction|reflexivity].
  - now rewrite S0.
Qed.

(** Every argument the user gives reaches the adapter under its name. *)
Theorem C160_given : forall n f args o b k v, provided n f -> shorthand f args = Ok (o, b) -> given args k = Some v ->
  k <> "base_estimator" -> v <> PNone -> (takes_estimator k -> truth v = Ok true) -> o_attr o k = Some v.
Proof.
  intros n f args o b k v P H G NB NV T. destruct (passed_on n f args o b P H) as (NA & a & C & A1 & _ & _). unfold given in G.
  apply (stores n f P a o C); auto. rewrite A1; [unfold setting at 1; now rewrite G|].
  pose proof (all_well_formed n f P) as W. unfold well_formed in W. apply andb_true_iff in W as [W _]. apply andb_true_iff in W as [_ W].
  rewrite forallb_forall in W. apply (dict_get_In _ seqb) in G. specialize (W k (NA k v G)).
  apply orb_true_iff in W as [W|W]; [apply String.eqb_eq in W; contradiction|]. apply existsb_exists in W as (x & I & E). apply String.eqb_eq in E. now subst.
Qed.
(** The estimator of the pipeline is the one given; without one it is a provided estimator. *)
Theorem C160_estimator : forall n f args o b, provided n f -> shorthand f args = Ok (o, b) ->
  b = match given args "base_estimator" with Some PNone | None => PEst (f_base f) | Some v => v end.
Proof.
  intros n f args o b P H. destruct (passed_on n f args o b P H) as (NA & a & C & _ & _ & ->). unfold setting, given.
  destruct (dict_get String.eqb "base_estimator" args) as [v|]; [reflexivity|].
  unfold provided, factories in P. repeat (destruct P as [P|P]; [injection P as <- <-; reflexivity|]). destruct P.
Qed.
(** An argument that is not given has the default of the adapter's class, gamma (which the classes require) is 1. *)
Theorem C160_defaults : forall n f args o b k d, provided n f -> shorthand f args = Ok (o, b) -> given args k = None ->
  In (k, d) (c_params (f_cls f)) -> ~ takes_estimator k ->
  ~ (n = "LinearOTMapping" /\ k = "reg") -> ~ (n = "OTLabelProp" /\ k = "reg") ->
  o_attr o k = match d with Some v => Some v | None => Some (PNum 1) end.
Proof.
  intros n f args o b k d P H G I T E1 E2. destruct (passed_on n f args o b P H) as (_ & a & C & A1 & A2 & _). unfold given in G.
  assert (S : setting (f_params f) args k = setting (f_params f) [] k) by (unfold setting; now rewrite G).
  assert (K : a k = match d with Some v => Some v | None => Some (PNum 1) end).
  { unfold provided, factories in P.
    repeat (destruct P as [P|P]; [injection P as <- <-;
      cbn in I; repeat (destruct I as [I|I]; [injection I as <- <-;
        first [ exfalso; apply E1; split; reflexivity | exfalso; apply E2; split; reflexivity
              | rewrite A1 by (cbn; tauto); rewrite S; reflexivity
              | rewrite A2 by (cbn; intuition discriminate); reflexivity ]|]); destruct I|]). destruct P. }
  assert (Q : (exists v, a k = Some v /\ v <> PNone) -> o_attr o k = a k).
  { intros (v & Ev & Nv). rewrite Ev. apply (stores n f P a o C k v Ev Nv). intros; contradiction. }
  destruct d as [[| | | |]|]; try (rewrite <- K; apply Q; rewrite K; eexists; split; [reflexivity|discriminate]).
  (* parameters whose default is None *)
  unfold provided, factories in P.
  repeat (destruct P as [P|P]; [injection P as <- <-;
    first [ cbn in C; injection C as <-; exact K
          | cbn in C; destruct (a "kernel") as [[| |s| |]|]; try discriminate; match type of C with (if ?c then _ else _) = _ => destruct c; [|discriminate] end; injection C as <-; exact K
          | cbn in I; destruct I as [I|[]]; injection I as <-; exfalso; apply T; (now left) || (now right)
          | cbn in I; repeat (destruct I as [I|I]; [try discriminate I|]); [..|destruct I]; injection I as <-; cbn in C; unfold tsl_init in C;
            destruct (a "base_method") as [[| |s| |]|]; try discriminate; destruct (existsb _ _); [|discriminate];
            destruct (a "reg") as [[|q| | |]|] eqn:R; try discriminate;
            [injection C as <-; exact K|destruct (_ || _); [discriminate|]; injection C as <-; exact K] ]|]). destruct P.
Qed.
(** LinearOTMapping documents (and its adapter has) the default 1e-8, but uses 1. *)
Theorem C160_linear_default_refuted : forall args o b, shorthand f_linear args = Ok (o, b) -> given args "reg" = None ->
  o_attr o "reg" = Some (PNum 1) /\ setting linear_ot_params [] "reg" = Some documented_linear_reg /\ Some (PNum 1) <> Some documented_linear_reg.
Proof.
  intros args o b H G. assert (P : provided "LinearOTMapping" f_linear) by (unfold provided, factories; cbn; tauto).
  destruct (passed_on _ _ args o b P H) as (_ & a & C & A1 & _ & _). cbn in C. injection C as <-. cbn [o_attr].
  split; [|split; [reflexivity|discriminate]]. rewrite A1 by (cbn; tauto). unfold setting, given in *. now rewrite G.
Qed.
(** Other names are refused. *)
Theorem C160_unknown : forall f args k v, In (k, v) args -> ~ In k (map fst (f_params f)) -> shorthand f args = Err TypeError.
Proof.
  intros f args k v I N. unfold shorthand, construct. cbn [c_varkw].
  destruct (filter _ args) as [|x l] eqn:E; [|reflexivity]. exfalso.
  assert (J : In (k, v) (filter (fun kv => negb (has_name (mkCls (f_params f) false (fun a _ => Ok (mkObj a [] (fun _ => None)))) (fst kv))) args)).
  { apply filter_In. split; [exact I|]. cbn [fst]. apply negb_true_iff, has_name_false. exact N. }
  rewrite E in J. destruct J.
Qed.
(** Known names are accepted whenever the adapter accepts the values: always when its constructor only stores them. *)
Theorem C160_accepts : forall n f args ps, provided n f -> f_cls f = plain ps -> all_named (f_params f) args -> exists o b, shorthand f args = Ok (o, b).
Proof.
  intros n f args ps P E NA. unfold shorthand. rewrite construct_named by exact NA.
  destruct (bind_ok (mkCls (f_params f) false (fun a _ => Ok (mkObj a [] (fun _ => None)))) args) as (a & B & S).
  { split; [exact NA|]. cbn. intros k I. exfalso. unfold provided, factories in P.
    repeat (destruct P as [P|P]; [injection P as <- <-; cbn in I; repeat (destruct I as [I|I]; [discriminate I|]); destruct I|]). destruct P. }
  rewrite B. cbn [bind c_init o_attr]. cbn [c_params] in S. rewrite E.
  set (passed := flat_map _ (f_passed f)).
  assert (NB : all_named ps passed).
  { intros k v I. unfold passed in I. apply in_flat_map in I as (q & Iq & J). destruct (a q); [|destruct J]. destruct J as [[= <- <-]|[]].
    pose proof (all_well_formed n f P) as W. unfold well_formed in W. apply andb_true_iff in W as [W _]. apply andb_true_iff in W as [W _].
    rewrite forallb_forall in W. specialize (W q Iq). apply andb_true_iff in W as [_ W]. rewrite E in W. now apply has_name_iff in W. }
  rewrite construct_named by exact NB. destruct (bind_ok (plain ps) passed) as (a1 & B1 & _).
  { split; [exact NB|]. cbn. intros k I.
    assert (R : In k (f_passed f) /\ exists v, setting (f_params f) [] k = Some v).
    { unfold provided, factories in P.
      repeat (destruct P as [P|P]; [injection P as <- <-; try discriminate E; injection E as <-; cbn in I;
        repeat (destruct I as [I|I]; [first [discriminate I | injection I as <-; split; [cbn; tauto|eexists; reflexivity]]|]); destruct I|]). destruct P. }
    destruct R as [Rk [v Rv]]. unfold passed. rewrite passed_get.
    rewrite (proj2 (existsb_exists _ _)) by (exists k; split; [exact Rk|apply String.eqb_refl]). rewrite S. unfold setting in *. cbn in Rv.
    destruct (dict_get String.eqb k args) as [w|]; [now exists w|]. now exists v. }
  rewrite B1. cbn. eauto.
Qed.

Example C160_ex : exists o b, shorthand f_kliep [("cv", PNum 3); ("base_estimator", PEst svc)] = Ok (o, b) /\ b = PEst svc /\
  o_attr o "cv" = Some (PNum 3) /\ o_attr o "gamma" = Some (PNum 1) /\ o_attr o "tol" = Some (PNum (1 # 1000000)) /\
  shorthand f_tjm [("verbose", PBool true)] = Err TypeError /\
  shorthand f_kmm [("kernel", PText "gauss")] = Err ValueError.
Proof. eexists. eexists. split; [reflexivity|]. repeat split. Qed.
Example C160_linear_ex : exists o b, shorthand f_linear [("bias", PBool false)] = Ok (o, b) /\ o_attr o "reg" = Some (PNum 1).
Proof. eexists. eexists. split; [reflexivity|]. reflexivity. Qed.
