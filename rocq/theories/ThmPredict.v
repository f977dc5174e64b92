(** C183: a fitted pipeline treats samples one by one. *)
From Coq Require Import String List ZArith QArith Bool Arith Lia.
From Verif Require Import Np NpFacts Labels Spec SpecFacts UtilsModel UtilsSpec SelectModel SelectSpec SelectProofs
  SelectProofs2 Sel2Model PredictModel ThmSelect.
Import ListNotations.
Local Open Scope string_scope.
Local Open Scope nat_scope.
Local Open Scope list_scope.

(** ** Specification *)

(** The parameters of predict(X, sample_domain=sd). *)
Definition domains (sd : list Z) : params := [("sample_domain", PDom sd)].

(** A function of the domain label and of the row, applied to every sample. *)
Definition each {R A} (f : Z -> R -> A) (sd : list Z) (X : list R) : list A :=
  map (fun p => f (fst p) (snd p)) (combine sd X).

(** The wrapped estimator asks for the domain labels or it does not, and its fitted method treats the samples one by
    one: row and label of sample i decide entry i of the result. *)
Definition one_by_one {R A} (route : params -> res params) (meth : list R -> params -> res (list A)) (f : Z -> R -> A)
  : Prop :=
  exists asks : bool,
    (forall sd, route (domains sd) = Ok (if asks then domains sd else [])) /\
    (forall X sd, sd <> [] -> length X = length sd -> meth X (if asks then domains sd else []) = Ok (each f sd X)).

(** [f] describes the fitted step on the domain labels [known]. *)
Inductive described {R A} (known : Z -> Prop) : fitted_step R A -> (Z -> R -> A) -> Prop :=
| D_shared route meth f : one_by_one route meth f -> described known (FShared route meth) f
| D_per_domain route ests f :
    (forall d, known d -> exists est fd, dict_get Z.eqb d ests = Some est /\ one_by_one route est fd /\ forall x, fd d x = f d x) ->
    described known (FPerDomain route ests) f
| D_source_target rs rt ms mt fs ft f :
    one_by_one rs ms fs -> one_by_one rt mt ft ->
    (forall d x, f d x = if is_source d then fs d x else ft d x) ->
    described known (FSourceTarget rs rt ms mt) f.

(** A row through all the steps. *)
Fixpoint through {R} (fs : list (Z -> R -> R)) (d : Z) (x : R) : R :=
  match fs with [] => x | f :: fs' => through fs' d (f d x) end.

(** ** Proofs *)

Lemma each_length {R A} (f : Z -> R -> A) sd X : length X = length sd -> length (each f sd X) = length sd.
Proof. intros H. unfold each. rewrite map_length, combine_length. lia. Qed.

Lemma each_ext {R A} (f g : Z -> R -> A) sd (X : list R) : (forall d x, In d sd -> f d x = g d x) -> each f sd X = each g sd X.
Proof.
  intros H. unfold each. apply map_ext_in. intros [d x] Hin. cbn [fst snd]. apply H. eapply in_combine_l; eauto.
Qed.

Lemma each_each {R S A} (f : Z -> R -> S) (g : Z -> S -> A) sd X :
  each g sd (each f sd X) = each (fun d x => g d (f d x)) sd X.
Proof.
  unfold each. revert X. induction sd as [|d sd IH]; intros [|x X]; cbn; auto. now rewrite IH.
Qed.

Lemma each_rows {R A} p (f : Z -> R -> A) sd X : length X = length sd ->
  each f (rows_of p sd sd) (rows_of p sd X) = rows_of p sd (each f sd X).
Proof.
  rewrite !rows_of_select. unfold each. revert X. induction sd as [|d sd IH]; intros [|x X] H; cbn in *; try discriminate; auto.
  destruct (p d); cbn; rewrite IH; auto.
Qed.

Lemma rows_of_length {A} p sd (xs : list A) : length xs = length sd -> length (rows_of p sd xs) = how_many p sd.
Proof. intros H. rewrite rows_of_filter_by. apply filter_by_length. auto. Qed.

(** Two lists with the same rows in every domain are equal. *)
Lemma rows_ext {A} sd (u v : list A) : length u = length sd -> length v = length sd ->
  (forall d, In d sd -> rows_of (Z.eqb d) sd u = rows_of (Z.eqb d) sd v) -> u = v.
Proof.
  revert u v. induction sd as [|d0 sd IH]; intros [|a u] [|b v] H1 H2 H; cbn in H1, H2; try discriminate; auto.
  assert (E : a = b).
  { specialize (H d0 (or_introl eq_refl)). rewrite !rows_of_select in H. cbn in H. rewrite Z.eqb_refl in H. now injection H. }
  f_equal; auto. apply IH; try lia. intros d Hd. specialize (H d (or_intror Hd)).
  rewrite !rows_of_select in *. cbn in H. destruct (d =? d0)%Z; [now injection H|exact H].
Qed.

Lemma sides_ext {A} sd (u v : list A) : length u = length sd -> length v = length sd ->
  rows_of is_source sd u = rows_of is_source sd v -> rows_of is_target sd u = rows_of is_target sd v -> u = v.
Proof.
  revert u v. induction sd as [|d0 sd IH]; intros [|a u] [|b v] H1 H2 Hs Ht; cbn in H1, H2; try discriminate; auto.
  rewrite !rows_of_select in *. cbn in Hs, Ht.
  destruct (is_source d0) eqn:E.
  - assert (E' : is_target d0 = false) by (unfold is_source, is_target in *; destruct (Z.ltb_spec d0 0); auto; apply Z.leb_le in E; lia).
    rewrite E' in Ht. injection Hs as -> Hs. f_equal. apply IH; try lia; rewrite !rows_of_select; auto.
  - assert (E' : is_target d0 = true) by (unfold is_source, is_target in *; destruct (Z.ltb_spec d0 0); auto; apply Z.leb_gt in E; lia).
    rewrite E' in Ht. injection Ht as -> Ht. f_equal. apply IH; try lia; rewrite !rows_of_select; auto.
Qed.

Lemma get_sd_domains sd : get_sd (domains sd) = Some sd.
Proof. reflexivity. Qed.

Lemma rows_nonempty {A} p sd (xs : list A) : length xs = length sd -> 0 < how_many p sd -> rows_of p sd xs <> [].
Proof. intros HL H E. pose proof (rows_of_length p sd xs HL) as G. rewrite E in G. cbn in G. lia. Qed.

Lemma how_many_in (p : Z -> bool) d sd : In d sd -> p d = true -> 0 < how_many p sd.
Proof.
  intros Hin Hp. unfold how_many. induction sd as [|d0 sd IH]; [easy|]. cbn. destruct Hin as [->|Hin].
  - rewrite Hp. cbn. lia.
  - specialize (IH Hin). destruct (p d0); cbn; lia.
Qed.

Lemma params_filter_domains p sd : params_filter p sd (domains sd) = domains (rows_of p sd sd).
Proof. unfold params_filter, domains, param_filter. cbn. now rewrite Nat.eqb_refl. Qed.

Lemma params_rows_domains d sd (asks : bool) :
  params_rows d sd (if asks then domains sd else []) = if asks then domains (rows_of (Z.eqb d) sd sd) else [].
Proof. now destruct asks. Qed.

Lemma step_each {R A} (zero : A) known (s : fitted_step R A) f : described known s f ->
  forall X sd, sd <> [] -> length X = length sd -> Forall known sd -> step_call zero s X (domains sd) = Ok (each f sd X).
Proof.
  intros D X sd Hne HX HK. destruct D as [route meth f [asks [Hr Hm]]|route ests f H|rs rt ms mt fs ft f [as_ [Hrs Hms]] [at_ [Hrt Hmt]] Hf].
  - cbn [step_call]. unfold shared_route. rewrite Hr. cbn [bind sel_remove_masked k_X k_params]. now apply Hm.
  - cbn [step_call]. rewrite Forall_forall in HK.
    assert (Hd0 : exists d0, In d0 sd) by (destruct sd as [|d0 sd']; [easy|exists d0; now left]).
    destruct Hd0 as [d0 Hd0].
    destruct (H d0 (HK d0 Hd0)) as [e0 [f0 [_ [[asks [Hr _]] _]]]].
    destruct (C15_per_domain_routes_rows R (list R -> params -> res (list A)) A route zero (fun e => e) ests X (domains sd)
                (if asks then domains sd else []) sd (fun d => rows_of (Z.eqb d) sd (each f sd X)))
      as [r [Er [Lr Hrows]]]; auto.
    + intros k v Hin. destruct asks; [|easy]. destruct Hin as [E|[]]. injection E as <- <-. reflexivity.
    + intros d Hd. destruct (H d (HK d Hd)) as [est [fd [E1 [[asks' [Hr' Hm']] E2]]]].
      exists est. split; [exact E1|]. split.
      * rewrite params_rows_domains.
        assert (Ea : asks' = asks).
        { specialize (Hr sd). specialize (Hr' sd). rewrite Hr in Hr'. injection Hr' as E. destruct asks, asks'; easy. }
        subst asks'. rewrite Hm'.
        -- f_equal. rewrite (each_ext fd f).
           ++ now apply each_rows.
           ++ intros d' x Hd'. rewrite rows_of_select in Hd'.
              assert (d' = d).
              { clear - Hd'. induction sd as [|a sd IH]; cbn in Hd'; [easy|].
                destruct (d =? a)%Z eqn:E; [|auto]. destruct Hd' as [<-|Hd']; auto. apply Z.eqb_eq in E. auto. }
              subst d'. apply E2.
        -- apply rows_nonempty; auto. apply (how_many_in _ d); auto. apply Z.eqb_refl.
        -- rewrite !rows_of_length; auto.
      * apply rows_of_length. now apply each_length.
    + rewrite Er. f_equal. apply (rows_ext sd); auto; [lia|now apply each_length].
  - cbn [step_call].
    destruct (C18_predict_each_side R A rs rt zero ms mt X (domains sd) sd
                (rows_of is_source sd (each f sd X)) (rows_of is_target sd (each f sd X))) as [r [Er [Lr [E1 E2]]]]; auto.
    + intros k l [E|[]]. discriminate.
    + intros Hn. rewrite params_filter_domains. eexists. split; [apply Hrs|]. rewrite Hms.
      * f_equal. rewrite (each_ext fs f); [now apply each_rows|]. intros d x Hd. rewrite Hf.
        rewrite rows_of_select in Hd. replace (is_source d) with true; auto.
        clear - Hd. induction sd as [|a sd IH]; cbn in Hd; [easy|]. destruct (is_source a) eqn:E; [|auto].
        destruct Hd as [->|Hd]; auto.
      * apply rows_nonempty; auto.
      * rewrite !rows_of_length; auto.
    + intros Hn. rewrite params_filter_domains. eexists. split; [apply Hrt|]. rewrite Hmt.
      * f_equal. rewrite (each_ext ft f); [now apply each_rows|]. intros d x Hd. rewrite Hf.
        rewrite rows_of_select in Hd. replace (is_source d) with false; auto.
        assert (G : is_target d = true).
        { clear - Hd. induction sd as [|a sd IH]; cbn in Hd; [easy|]. destruct (is_target a) eqn:E; [|auto].
          destruct Hd as [->|Hd]; auto. }
        unfold is_target, is_source in *. symmetry. apply Z.leb_gt. now apply Z.ltb_lt.
      * apply rows_nonempty; auto.
      * rewrite !rows_of_length; auto.
    + apply rows_of_length. now apply each_length.
    + apply rows_of_length. now apply each_length.
    + rewrite Er. f_equal. apply (sides_ext sd); auto; [lia|now apply each_length].
Qed.

Lemma pipe_each {R A} (zr : R) (za : A) known (steps : list (fitted_step R R)) (fin : fitted_step R A) fs g :
  Forall2 (described known) steps fs -> described known fin g ->
  forall X sd, sd <> [] -> length X = length sd -> Forall known sd ->
  pipe_predict zr za steps fin X (domains sd) = Ok (each (fun d x => g d (through fs d x)) sd X).
Proof.
  intros HF HG. induction HF as [|s f steps fs Hs HF IH]; intros X sd Hne HX HK.
  - cbn [pipe_predict through]. now apply (step_each za known).
  - cbn [pipe_predict]. rewrite (step_each zr known s f Hs) by auto. cbn [bind].
    rewrite IH by (auto; now apply each_length). f_equal.
    exact (each_each f (fun d x => g d (through fs d x)) sd X).
Qed.

(** ** C183 *)

(** Any fitted pipeline, with any mixture of selectors, whose fitted methods treat samples one by one: the prediction
    for a sample is what the fitted functions give for its row and its domain, whatever else is in the batch. *)
Theorem C183_one_by_one : forall (R A : Type) (zr : R) (za : A) known (steps : list (fitted_step R R))
    (fin : fitted_step R A) fs g X sd,
  Forall2 (described known) steps fs -> described known fin g ->
  sd <> [] -> length X = length sd -> Forall known sd ->
  exists out, pipe_predict zr za steps fin X (domains sd) = Ok out /\ length out = length X /\
    forall i d x, nth_error sd i = Some d -> nth_error X i = Some x -> nth_error out i = Some (g d (through fs d x)).
Proof.
  intros R A zr za known steps fin fs g X sd HF HG Hne HX HK.
  exists (each (fun d x => g d (through fs d x)) sd X). split; [now apply (pipe_each zr za known)|].
  split; [rewrite each_length; auto|].
  clear Hne HK HF HG. revert X HX. induction sd as [|d0 sd IH]; intros [|x0 X] HX i d x H1 H2; try discriminate.
  - destruct i; discriminate.
  - destruct i as [|i]; cbn in *; [congruence|]. now apply IH; auto.
Qed.

(** Hence a batch may be cut anywhere: predicting the two parts and joining the results is predicting the whole. *)
Theorem C183_batches : forall (R A : Type) (zr : R) (za : A) known (steps : list (fitted_step R R))
    (fin : fitted_step R A) fs g X1 X2 sd1 sd2,
  Forall2 (described known) steps fs -> described known fin g ->
  sd1 <> [] -> sd2 <> [] -> length X1 = length sd1 -> length X2 = length sd2 -> Forall known (sd1 ++ sd2) ->
  exists out1 out2,
    pipe_predict zr za steps fin X1 (domains sd1) = Ok out1 /\
    pipe_predict zr za steps fin X2 (domains sd2) = Ok out2 /\
    pipe_predict zr za steps fin (X1 ++ X2) (domains (sd1 ++ sd2)) = Ok (out1 ++ out2).
Proof.
  intros R A zr za known steps fin fs g X1 X2 sd1 sd2 HF HG N1 N2 L1 L2 HK.
  pose proof HK as HK'. apply Forall_app in HK'. destruct HK' as [K1 K2].
  rewrite !(pipe_each zr za known steps fin fs g) by (auto; rewrite ?app_length; try lia; now destruct sd1).
  eexists. eexists. split; [reflexivity|]. split; [reflexivity|]. f_equal.
  unfold each. rewrite <- map_app. f_equal. clear - L1. revert X1 L1.
  induction sd1 as [|d sd1 IH]; intros [|x X1] L; cbn in *; try discriminate; auto. now rewrite IH by lia.
Qed.

(** Four fitted steps: one for all domains, one per side, one per domain, and the final one. *)
Example C183_ex :
  let at_ f : list nat -> params -> res (list nat) := fun X _ => Ok (map f X) in
  let no : params -> res params := fun _ => Ok [] in
  let steps := [FShared no (at_ (fun x => x + 1)); FSourceTarget no no (at_ (fun x => 10 * x)) (at_ (fun x => 20 * x));
                FPerDomain no [((-2)%Z, at_ (fun x => x)); (3%Z, at_ (fun x => x + 3))]] in
  let fin := FShared no (fun X _ => Ok (map (fun x => Nat.even x) X)) in
  (exists fs g, Forall2 (described (fun d => d = 3%Z \/ d = (-2)%Z)) steps fs /\ described (fun d => d = 3%Z \/ d = (-2)%Z) fin g) /\
  pipe_predict 0 false steps fin [4; 5; 6] (domains [3; -2; 3]%Z) = Ok [false; true; false].
Proof.
  cbn zeta.
  assert (O : forall B (f : nat -> B), one_by_one (R:=nat) (fun _ => Ok []) (fun X _ => Ok (map f X)) (fun _ x => f x)).
  { intros B f. exists false. split; [reflexivity|]. intros X sd _ HX. f_equal. unfold each.
    revert X HX. induction sd as [|d sd IH]; intros [|x X] H; cbn in *; try discriminate; auto. now rewrite <- IH by lia. }
  split; [|reflexivity].
  exists [fun _ x => x + 1; fun d x => if is_source d then 10 * x else 20 * x; fun d x => if (d =? 3)%Z then x + 3 else x], (fun _ x => Nat.even x).
  split; [|constructor; apply O].
  constructor; [constructor; apply (O nat (fun x => x + 1))|].
  constructor; [apply D_source_target with (fs := fun _ x => 10 * x) (ft := fun _ x => 20 * x); auto; apply (O nat)|].
  constructor; [|constructor]. constructor. intros d [->| ->].
  - eexists. exists (fun _ x => x + 3). split; [reflexivity|]. split; [apply (O nat)|reflexivity].
  - eexists. exists (fun _ x => x). split; [reflexivity|]. split; [apply (O nat)|reflexivity].
Qed.
