(** Theorem C171: the public fetch functions. *)
From Coq Require Import String Ascii List ZArith QArith Bool Arith Lia Permutation.
From Verif Require Import Np NpFacts Labels Spec PipeModel PipeProofs UtilsSpec DataModel DataSpec DataProofs ThmData FetchModel FetchSpec FetchProofs ThmFetch Fetch2Model Fetch2Spec.
Import ListNotations.
Local Open Scope nat_scope.
Local Open Scope list_scope.

(** ** Names *)
Lemma lower_case s t : same_but_case s t -> (forall c, In c (list_ascii_of_string t) -> ~ capital c) -> lower s = t.
Proof.
  intros H. induction H as [|c s t H IH|c c' s t K E H IH]; intros N; [reflexivity| |]; cbn [lower]; (rewrite IH by (intros x Hx; apply N; right; exact Hx)); f_equal.
  - assert (K : ~ capital c) by (apply N; left; reflexivity). unfold lower_ascii, capital in *.
    destruct (Nat.leb_spec 65 (nat_of_ascii c)); destruct (Nat.leb_spec (nat_of_ascii c) 90); cbn [andb]; try reflexivity. exfalso. apply K. lia.
  - unfold lower_ascii, capital in *.
    destruct (Nat.leb_spec 65 (nat_of_ascii c)); destruct (Nat.leb_spec (nat_of_ascii c) 90); cbn [andb]; try lia.
    rewrite <- E. apply ascii_nat_embedding.
Qed.
Lemma small_names v c : In v (office31_domains ++ amazon_review_domains ++ office_home_domains) -> In c (list_ascii_of_string v) -> ~ capital c.
Proof.
  intros H I. assert (A : forallb (fun v => forallb (fun c => 91 <=? nat_of_ascii c) (list_ascii_of_string v)) (office31_domains ++ amazon_review_domains ++ office_home_domains) = true) by (vm_compute; reflexivity).
  rewrite forallb_forall in A. specialize (A v H). rewrite forallb_forall in A. specialize (A c I). apply Nat.leb_le in A. unfold capital. lia.
Qed.

(** A domain may be given as the member of the enumeration or by its name in capitals, small letters or a mixture: same result, same effect. *)
Theorem C171_any_case : forall (File Row : Type) enum program (load : string -> list File -> @table Row + fexn) as_dataset rxy d c v s,
  enum = office31_domains \/ enum = amazon_review_domains \/ enum = office_home_domains -> In v enum -> same_but_case s v ->
  fetch_public enum program load as_dataset rxy d (DStr s) c = fetch_public enum program load as_dataset rxy d (DMember v) c.
Proof.
  intros File Row enum program load ad rxy d c v s He Hv Hs.
  assert (L : lower s = v).
  { apply lower_case; [exact Hs|]. intros x. apply small_names. rewrite !in_app_iff. destruct He as [->|[->| ->]]; auto. }
  assert (R : resolve enum (DStr s) = Ok v).
  { cbn [resolve]. rewrite L. replace (existsb (String.eqb v) enum) with true; [reflexivity|]. symmetry. apply existsb_exists. exists v. split; [exact Hv | apply String.eqb_refl]. }
  unfold fetch_public, fetch_arrays. rewrite R. reflexivity.
Qed.

(** Any other string raises ValueError, anything that is neither a string nor a member AttributeError; the disk is not touched, nothing is downloaded. *)
Theorem C171_unknown : forall (File Row : Type) enum program (load : string -> list File -> @table Row + fexn) as_dataset rxy d c,
  (forall s, ~ In (lower s) enum -> fetch_public enum program load as_dataset rxy d (DStr s) c = (d, Raised (Other ValueError))) /\
  fetch_public enum program load as_dataset rxy d DOther c = (d, Raised (Other AttributeError)).
Proof.
  intros File Row enum program load ad rxy d c. split; [|reflexivity].
  intros s H. unfold fetch_public, fetch_arrays, resolve.
  destruct (existsb (String.eqb (lower s)) enum) eqn:E; [|reflexivity].
  apply existsb_exists in E. destruct E as (x & I & Q). apply String.eqb_eq in Q. subst. contradiction.
Qed.

(** ** All domains *)
Definition as_dom {Row} (t : @table Row) : @dom Row := mkDom (fst t) (Some (snd t)).

Lemma tracks_holds {Row} (s : @dataset Row) h : tracks s h -> NoDup (map fst h) -> holds s h.
Proof.
  intros T ND. split; [apply (tracks_fst _ _ T)|]. intros i v d E. split.
  - destruct T as [_ ->]. apply combine_nth_error.
    + rewrite nth_error_map, E. reflexivity.
    + rewrite (nth_error_nth' _ 0) by (rewrite seq_length; apply nth_error_Some; congruence). rewrite seq_nth by (apply nth_error_Some; congruence). reflexivity.
  - apply (tracks_get s h v d T ND). eapply nth_error_In. exact E.
Qed.

Section Loop.
  Context {File Row : Type}.
  Variables (enum : list string) (program : list (action File)) (load : string -> list File -> @table Row + fexn).
  Hypothesis prog_dir : exists fs, program = office_program fs \/ program = amazon_program fs.

  Lemma run_dir d : k_dir (run program d) = true.
  Proof.
    destruct prog_dir as (fs & [-> | ->]).
    - unfold office_program. rewrite !run_app, run_extract. reflexivity.
    - unfold amazon_program. rewrite !run_app, map_move, run_moves, run_nested. reflexivity.
  Qed.
  Lemma fetch_returned (l : list File -> @table Row + fexn) d c d' t : fetch program l d c = (d', Returned t) -> k_dir d' = true /\ l (k_files d') = inl t /\ (k_dir d = true -> d' = d).
  Proof.
    unfold fetch, load_outcome. destruct (k_dir d) eqn:K.
    - intros E. injection E as <- E. destruct (l (k_files d)) eqn:Q; [|discriminate]. injection E as ->. auto.
    - destruct (negb (c_download c)); [discriminate|].
      assert (A : (run program d, match l (k_files (run program d)) with inl r => Returned r | inr e => Raised e end) = (d', Returned t) -> k_dir d' = true /\ l (k_files d') = inl t /\ (false = true -> d' = d)).
      { intros E. injection E as <- E. destruct (l (k_files (run program d))) eqn:Q; [|discriminate]. injection E as ->. split; [apply run_dir|]. split; [first [exact Q | reflexivity] | discriminate]. }
      destruct (c_stop c) as [k|]; [destruct (k <? length program); [discriminate|]|]; exact A.
  Qed.
  Lemma loop_ok : forall doms d c s h d' s', tracks s h -> NoDup (map fst h ++ doms) -> fetch_loop enum program load doms d c s = (d', Returned s') ->
    exists ts, Forall2 (fun v t => load v (k_files d') = inl t) doms ts /\ tracks s' (h ++ combine doms (map as_dom ts)) /\
      (doms <> [] -> k_dir d' = true) /\ (k_dir d = true -> d' = d) /\ (reachable s -> reachable s').
  Proof.
    induction doms as [|v doms IH]; intros d c s h d' s' T ND E; cbn [fetch_loop] in E.
    - injection E as <- <-. exists []. repeat split; auto; try congruence; try contradiction; cbn [combine map]; rewrite app_nil_r; apply T.
    - unfold fetch_arrays in E. cbn [resolve] in E. destruct (fetch program (load v) d c) as [d1 o] eqn:F. destruct o as [t|e|]; [|discriminate|discriminate].
      destruct (fetch_returned _ _ _ _ _ F) as (K & L & S0).
      destruct (register s v t) as [s1|e] eqn:G; [|discriminate].
      destruct (add_named_ok s h v (as_dom t) s1 T G) as [N T1].
      assert (ND1 : NoDup (map fst (h ++ [(v, as_dom t)]) ++ doms)) by (rewrite map_app, <- app_assoc; exact ND).
      destruct (IH d1 c s1 _ d' s' T1 ND1 E) as (ts & A & B & C & D & R). specialize (D K). subst d'.
      exists (t :: ts). split; [constructor; assumption|]. split; [cbn [map combine]; rewrite <- app_assoc in B; exact B|]. split; [intros _; exact K|]. split; [exact S0|].
      intros (ops & Ho). apply R. exists (ops ++ [OAdd (as_dom t) (Some v)]). unfold DataSpec.run. rewrite fold_left_app. cbn [fold_left]. unfold DataSpec.run in Ho. rewrite Ho. exact G.
  Qed.
End Loop.

(** fetch_..._all: when it returns, the dataset holds the domains of the enumeration in its order, numbered from 1; each holds what the function
    for one domain returns, now (for the same random_state, if shuffled) and at any later call. *)
Theorem C171_all : forall (File Row : Type) enum program (load : string -> list File -> @table Row + fexn) d c d' s,
  (exists fs, program = office_program fs \/ program = amazon_program fs) -> enum <> [] -> NoDup enum ->
  fetch_all enum program load d c = (d', Returned s) ->
  exists ts, holds s (combine enum (map as_dom ts)) /\ length ts = length enum /\
    forall v t c', In (v, t) (combine enum ts) -> fetch_arrays enum program load d' (DMember v) c' = (d', Returned t).
Proof.
  intros File Row enum program load d c d' s Hp Hne ND E.
  destruct (loop_ok enum program load Hp enum d c empty_ds [] d' s (conj eq_refl eq_refl) ND E) as (ts & A & B & K & _ & _).
  assert (L : length ts = length enum) by (clear -A; induction A; cbn; congruence).
  exists ts. split; [|split; [exact L|]].
  - apply tracks_holds; [exact B|]. replace (map fst (combine enum (map as_dom ts))) with enum; [exact ND|].
    clear -L. revert ts L. induction enum as [|v e IH]; intros [|t ts] L; try discriminate; [reflexivity|]. cbn [map combine fst]. f_equal. apply IH. cbn in L. lia.
  - intros v t c' I. unfold fetch_arrays. cbn [resolve]. unfold fetch. rewrite (K Hne). unfold load_outcome.
    clear -A I. induction A as [|v0 t0 vs ts0 H A IH]; [destruct I|]. destruct I as [I|I]; [injection I as -> ->; rewrite H; reflexivity | apply IH; exact I].
Qed.

(** It raises what the first domain that cannot be loaded raises. *)
Theorem C171_all_raises : forall (File Row : Type) enum program (load : string -> list File -> @table Row + fexn) d c,
  (exists fs, program = office_program fs \/ program = amazon_program fs) -> NoDup enum -> k_dir d = true ->
  (forall pre v post e, enum = pre ++ v :: post -> (forall w, In w pre -> exists t, load w (k_files d) = inl t) -> load v (k_files d) = inr e ->
     fetch_all enum program load d c = (d, Raised e)) /\
  ((forall v, In v enum -> exists t, load v (k_files d) = inl t) -> exists s, fetch_all enum program load d c = (d, Returned s)).
Proof.
  intros File Row enum program load d c Hp ND K.
  assert (G : forall doms s h, tracks s h -> NoDup (map fst h ++ doms) ->
     (forall pre v post e, doms = pre ++ v :: post -> (forall w, In w pre -> exists t, load w (k_files d) = inl t) -> load v (k_files d) = inr e ->
        fetch_loop enum program load doms d c s = (d, Raised e)) /\
     ((forall v, In v doms -> exists t, load v (k_files d) = inl t) -> exists s', fetch_loop enum program load doms d c s = (d, Returned s'))).
  { induction doms as [|v doms IH]; intros s h T N.
    - split; [intros pre v post e Q; destruct pre; discriminate | intros _; eexists; reflexivity].
    - assert (Step : forall t, load v (k_files d) = inl t -> exists s1, tracks s1 (h ++ [(v, as_dom t)]) /\
        fetch_loop enum program load (v :: doms) d c s = fetch_loop enum program load doms d c s1).
      { intros t Ht. cbn [fetch_loop]. unfold fetch_arrays. cbn [resolve]. unfold fetch. rewrite K. unfold load_outcome. rewrite Ht.
        assert (Nv : ~ In v (map fst h)) by (intros I; apply NoDup_remove_2 in N; apply N, in_or_app; left; exact I).
        unfold register, add_domain. rewrite dict_get_absent by (rewrite (tracks_fst _ _ T); exact Nv). cbn [bind].
        eexists. split; [apply (tracks_extend s h v (as_dom t) T Nv) | reflexivity]. }
      assert (N1 : forall t : @table Row, NoDup (map fst (h ++ [(v, as_dom t)]) ++ doms)) by (intros t; rewrite map_app, <- app_assoc; exact N).
      split.
      + intros pre w post e Q Hpre He. destruct pre as [|p pre].
        * injection Q as -> ->. cbn [fetch_loop]. unfold fetch_arrays. cbn [resolve]. unfold fetch. rewrite K. unfold load_outcome. rewrite He. reflexivity.
        * injection Q as -> Q. destruct (Hpre p (or_introl eq_refl)) as (t & Ht). destruct (Step t Ht) as (s1 & T1 & ->).
          destruct (IH s1 _ T1 (N1 t)) as [A _]. apply (A pre w post e Q); [|exact He]. intros x Hx. apply Hpre. right. exact Hx.
      + intros H. destruct (H v (or_introl eq_refl)) as (t & Ht). destruct (Step t Ht) as (s1 & T1 & ->).
        destruct (IH s1 _ T1 (N1 t)) as [_ B]. apply B. intros x Hx. apply H. right. exact Hx. }
  exact (G enum empty_ds [] (conj eq_refl eq_refl) ND).
Qed.
