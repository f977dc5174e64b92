(** Theorem C157: the prediction methods of the provided estimators. *)
From Coq Require Import String List Bool.
From Verif Require Import Np Sel2Model WrapModel WrapSpec.
Import ListNotations.
Local Open Scope list_scope.

Lemma no_weight {V} (ps : kwargs V) : domain_info ps -> given "sample_weight" ps = None.
Proof.
  unfold given. induction 1 as [|[k v] ps H F IH]; [reflexivity|]. cbn in *.
  destruct H as [-> | ->]; cbn; exact IH.
Qed.

(** Every documented method gives the result of the estimator inside, whatever the domain information (allow_source not for
    JDOTRegressor, probabilities of DASVM: see C57); JDOT warns exactly when a source label is given. *)
Theorem C157_domain_information : forall V Out has_source c (base i : inner V Out) result m ps,
  documented c m -> ordinary result i -> domain_info ps ->
  (m = MProba \/ m = MLogProba -> i_has base m = true /\ i_has i m = true) ->
  ~ (c = Dasvm /\ m = MProba) -> (c = JdotReg -> given "allow_source" ps = None) ->
  pipe_call has_source c base (Some i) m ps =
    Ok (result m None, match c with
                       | JdotReg | JdotClf => match given "sample_domain" ps with Some v => has_source v | None => false end
                       | _ => false
                       end).
Proof.
  intros V Out hs c base i result m ps D O P HP NP HA. pose proof (no_weight ps P) as W.
  unfold pipe_call, prepare_routing, route_params, unset_given.
  destruct c, m; cbn in D; try contradiction; try (exfalso; now apply NP); cbn [requests existsb fst snd orb flat_map];
    rewrite ?W; cbn [orb]; try rewrite (HA eq_refl);
    try (destruct (HP (or_introl eq_refl)) as [HB HI]); try (destruct (HP (or_intror eq_refl)) as [HB HI]);
    destruct (given "sample_domain" ps) as [d|]; try destruct (given "allow_source" ps) as [a|];
    cbn; rewrite ?HB, ?HI; cbn; rewrite ?(O MPredict), ?(O MProba), ?(O MLogProba), ?(O MDecision), ?(O MScore); reflexivity.
Qed.

(** A direct call is the same as through a pipeline when only domain labels are given. *)
Theorem C157_direct : forall V Out has_source c (base i : inner V Out) result m d,
  documented c m -> c = JdotReg \/ c = JdotClf -> ordinary result i -> i_has base MProba = true ->
  call has_source c base (Some i) m [("sample_domain"%string, Some d)] = Ok (result m None, has_source d).
Proof.
  intros V Out hs c base i result m d D C O HB. destruct C as [-> | ->]; destruct m; cbn in D; try contradiction; cbn; rewrite ?HB; cbn;
    rewrite ?(O MPredict), ?(O MProba), ?(O MScore); reflexivity.
Qed.

(** DASVM's score: its own keywords are not passed on twice, and it warns as well. *)
Theorem C157_direct_score : forall V Out has_source (base i : inner V Out) result d (w : option V),
  ordinary result i ->
  call has_source Dasvm base (Some i) MScore [("sample_domain"%string, Some d)] = Ok (result MScore None, has_source d) /\
  call has_source Dasvm base (Some i) MScore [("sample_weight"%string, w); ("sample_domain"%string, Some d)] = Ok (result MScore w, has_source d).
Proof. intros V Out hs base i result d w O. split; cbn; rewrite (O MScore); cbn; [reflexivity|]. destruct w; reflexivity. Qed.

(** allow_source is requested by JDOTRegressor but refused by its methods. *)
Theorem C157_allow_source_refuted : forall V Out has_source (base : inner V Out) st m ps v,
  m = MPredict \/ m = MScore -> domain_info ps -> given "allow_source" ps = Some v ->
  pipe_call has_source JdotReg base st m ps = Err TypeError.
Proof.
  intros V Out hs base st m ps v M P A. pose proof (no_weight ps P) as W.
  unfold pipe_call, prepare_routing, route_params, unset_given.
  destruct M as [-> | ->]; cbn [requests existsb fst snd orb flat_map]; rewrite W, A; destruct (given "sample_domain" ps); reflexivity.
Qed.

(** fit returns None for the two JDOT estimators: nothing can be chained. *)
Theorem C157_chain_refuted : forall V Out has_source c (base i : inner V Out) m kws, c = JdotReg \/ c = JdotClf ->
  fit_then has_source c base i m kws = Err AttributeError.
Proof. intros V Out hs c base i m kws [-> | ->]; reflexivity. Qed.
Theorem C157_chain : forall V Out has_source c (base i : inner V Out) m kws, c = Dasvm \/ c = Gradual ->
  fit_then has_source c base i m kws = call has_source c base (Some i) m kws.
Proof. intros V Out hs c base i m kws [-> | ->]; reflexivity. Qed.

(** Nothing is predicted before fit. *)
Theorem C157_not_fitted : forall V Out has_source c (base : inner V Out) m kws r, call has_source c base None m kws <> Ok r.
Proof.
  intros V Out hs c base m kws r. destruct c, m; cbn; try discriminate;
    try (destruct (accepts _ kws) as [[]|]; cbn; discriminate);
    destruct (i_has base MProba); cbn; try discriminate; destruct (accepts _ kws) as [[]|]; cbn; discriminate.
Qed.

(** Weights must be requested: without set_score_request they are refused, not silently dropped. *)
Theorem C157_weights_not_dropped : forall V Out has_source c (base : inner V Out) st ps v, c <> Gradual ->
  given "sample_weight" ps = Some v -> pipe_call has_source c base st MScore ps = Err ValueError.
Proof.
  intros V Out hs c base st ps v C W. unfold pipe_call, prepare_routing, route_params, unset_given.
  destruct c; try congruence; cbn [requests existsb fst snd orb]; rewrite W; cbn; reflexivity.
Qed.

Definition ten : inner nat nat := mkInner (fun _ => true) (fun m kws => match m with
  | MScore => if forallb (fun kv => String.eqb (fst kv) "sample_weight") kws then Ok 10 else Err TypeError
  | _ => match kws with [] => Ok 10 | _ => Err TypeError end end).
Example C157_ex : ordinary (fun _ _ => 10) ten /\
  pipe_call (Nat.eqb 1) JdotClf ten (Some ten) MPredict [("sample_domain", Some 1); ("allow_source", Some 7)]%string = Ok (10, true) /\
  pipe_call (Nat.eqb 1) JdotReg ten (Some ten) MPredict [("sample_domain", Some 1); ("allow_source", Some 7)]%string = Err TypeError /\
  pipe_call (Nat.eqb 1) Gradual ten (Some ten) MScore [("sample_domain", Some 1)]%string = Ok (10, false).
Proof. split; [|repeat split; reflexivity]. intros m kws. destruct m, kws; reflexivity. Qed.
