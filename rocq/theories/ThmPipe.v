(** Theorems C20-C22, C74, C75: building and cloning domain-aware pipelines. *)
From Coq Require Import String List ZArith QArith Bool Arith Lia.
From Verif Require Import Np NpFacts Labels SelectModel Spec SelectSpec PipeModel PipeSpec PipeProofs.
Import ListNotations.
Local Open Scope nat_scope.
Local Open Scope list_scope.

Definition lr : est := mkEst "logisticregression" false 1.
Definition nb : est := mkEst "gaussiannb" false 2.
Definition sc : est := mkEst "standardscaler" false 3.
Definition jcpot : est := mkEst "jcpotlabelpropadapter" true 4.

(** ** C20 *)

(** Every step is called by the user's name if it has one; otherwise by its base name if that occurs once, and by
    the base name, a dash and the rank of the occurrence if not. Holds for every [default_selector] argument. *)
Theorem C20_step_names : forall steps arg mask h h' named,
  make_da_pipeline steps arg mask h = Ok (h', named) ->
  exists bases, length bases = length named /\ length named = length (flat_map flat_step steps) /\
    forall k u it, nth_error (flat_map flat_step steps) k = Some (u, it) ->
      exists i s, nth_error named k = Some (match u with Some n => n | None => auto_name bases k end, i) /\
                  nth_error h' i = Some s /\ nth_error bases k = Some (base_name s).
Proof. apply make_names. Qed.

(** When no base name contains a dash (Python class names never do), two steps the user did not name have distinct
    names. *)
Theorem C20_unnamed_steps_distinct : forall steps arg mask h h' named,
  make_da_pipeline steps arg mask h = Ok (h', named) ->
  (forall n i s, In (n, i) named -> nth_error h' i = Some s -> ~ has_dash (base_name s)) ->
  forall k1 k2 it1 it2 n1 n2 i1 i2,
    nth_error (flat_map flat_step steps) k1 = Some (None, it1) -> nth_error named k1 = Some (n1, i1) ->
    nth_error (flat_map flat_step steps) k2 = Some (None, it2) -> nth_error named k2 = Some (n2, i2) ->
    k1 <> k2 -> n1 <> n2.
Proof.
  intros steps arg mask h h' named H Hd k1 k2 it1 it2 n1 n2 i1 i2 A1 B1 A2 B2 Hk E.
  destruct (make_names _ _ _ _ _ _ H) as [bases [L1 [L2 N]]].
  assert (D : forall n, In n bases -> ~ has_dash n).
  { intros n Hn. apply In_nth_error in Hn as [k Hn].
    assert (Lk : k < length (flat_map flat_step steps)) by (rewrite <- L2, <- L1; apply nth_error_Some; congruence).
    destruct (nth_error_lt_some _ _ Lk) as [[u it] Hu]. destruct (N k u it Hu) as [i [s [X1 [X2 X3]]]].
    rewrite Hn in X3. injection X3 as ->. eapply Hd; eauto. apply nth_error_In in X1. exact X1. }
  destruct (N _ _ _ A1) as [j1 [s1 [X1 [X2 X3]]]]. destruct (N _ _ _ A2) as [j2 [s2 [Y1 [Y2 Y3]]]].
  rewrite B1 in X1. rewrite B2 in Y1. injection X1 as -> ->. injection Y1 as -> ->.
  apply Hk. apply (auto_names_inj bases); auto; apply nth_error_Some; congruence.
Qed.

(** A user-given name can coincide with a generated one. *)
Theorem C20_user_name_collision_refuted : exists steps h' named,
  make_da_pipeline steps (SelName "shared") true [] = Ok (h', named) /\
  (exists n, In (SEst (Some n) lr) steps /\ count_occ string_dec (map fst named) n = 2).
Proof.
  exists [SEst None lr; SEst (Some "logisticregression-1"%string) lr]. do 2 eexists. split; [reflexivity|].
  exists "logisticregression-1"%string. split; [right; now left|reflexivity].
Qed.

Example C20_ex :
  match make_da_pipeline [SEst None sc; SEst None lr; SEst (Some "x"%string) nb; SEst None lr; SEst None sc; SEst None sc]
          (SelName "shared") true [] with
  | Ok (_, named) => map fst named
  | Err _ => []
  end = ["standardscaler-1"; "logisticregression-1"; "x"; "logisticregression-2"; "standardscaler-2"; "standardscaler-3"]%string.
Proof. reflexivity. Qed.

(** ** C21 *)

Theorem C21_empty_call : forall arg mask h, make_da_pipeline [] arg mask h = Err TypeError.
Proof. reflexivity. Qed.

(** Steps are plain estimators, existing selectors that are not final, and nested pipelines, all objects distinct.
    The result is the flat list in order, nested names prefixed; plain estimators are wrapped in a fresh selector of
    the requested class and existing selectors keep class, estimator and masking; exactly the last step is final. *)
Theorem C21_flat_and_only_last_final : forall steps nm cls mask h,
  (nm = "shared"%string /\ cls = CShared) \/ (nm = "per_domain"%string /\ cls = CPerDomain) ->
  flat_map flat_step steps <> [] ->
  (forall i, In i (nested_ids steps) -> i < length h) ->
  NoDup (nested_ids steps) ->
  (forall n i s, In (SSel n i) steps -> nth_error h i = Some s -> sl_final s = false) ->
  exists h' named, make_da_pipeline steps (SelName nm) mask h = Ok (h', named) /\
    length named = length (flat_map flat_step steps) /\ NoDup (map snd named) /\
    forall k u it, nth_error (flat_map flat_step steps) k = Some (u, it) ->
      exists n i s, nth_error named k = Some (n, i) /\ nth_error h' i = Some s /\
        (forall n', u = Some n' -> n = n') /\
        (sl_final s = true <-> S k = length named) /\
        match it with
        | ISel j => i = j /\ exists s0, nth_error h j = Some s0 /\
                    sl_cls s = sl_cls s0 /\ sl_base s = sl_base s0 /\ sl_mask s = sl_mask s0
        | IEst e => sl_cls s = cls /\ sl_base s = e /\ length h <= i
        end.
Proof.
  intros steps nm cls mask h H1 H2 H3 H4 H5.
  destruct (make_named_ok steps nm cls mask h H1 H2 H3 H4 H5) as [h' [named [M [L [ND P]]]]].
  exists h', named. split; auto. split; auto. split; auto. intros k u it Hk.
  destruct (P k u it Hk) as [n [i [s [N1 [N2 [N3 [N4 N5]]]]]]]. exists n, i, s.
  split; auto. split; auto. split; auto. split; [rewrite N4; apply Nat.eqb_eq|].
  destruct it; auto. destruct N5 as [A [B [C _]]]. auto.
Qed.

(** An existing final selector passed as such (not inside its pipeline) keeps its flag: two final steps. *)
Theorem C21_stale_final_flag_refuted : exists steps h h' named,
  make_da_pipeline steps (SelName "shared") true h = Ok (h', named) /\
  map (fun q => option_map sl_final (nth_error h' (snd q))) named = [Some true; Some true].
Proof.
  exists [SSel None 0; SEst None nb], [mkSel CShared lr true true]. do 2 eexists. split; reflexivity.
Qed.

(** Bad [default_selector] arguments are rejected as soon as an estimator has to be wrapped. *)
Theorem C21_bad_selector_rejected : forall steps arg mask h,
  (forall e m, exists x, wrap_est arg m e = Err x) ->
  (exists n e, In (SEst n e) steps) ->
  exists x, make_da_pipeline steps arg mask h = Err x.
Proof.
  intros steps arg mask h Hbad [n [e Hin]].
  destruct (make_da_pipeline steps arg mask h) as [[h' named]|x] eqn:E; [|eauto]. exfalso.
  apply make_inv in E as [h1 [h2 [ids [names [i0 [E1 [E2 _]]]]]]].
  assert (G : forall items mask h, In (IEst e) items -> exists x, wrap_all arg mask items h = Err x).
  { induction items as [|it items IH]; intros m h0 Hi; [easy|]. destruct it as [e0|i]; cbn [wrap_all].
    - destruct (Hbad e0 (if e_predicts e0 then false else m)) as [x ->]. cbn. eauto.
    - destruct Hi as [Hi|Hi]; [discriminate|]. destruct (IH m h0 Hi) as [x ->]. cbn. eauto. }
  destruct (G (map snd (flat_map flat_step steps)) mask h1) as [x Hx]; [|congruence].
  apply in_map_iff. exists (n, IEst e). split; auto. apply in_flat_map. exists (SEst n e). split; auto. now left.
Qed.

Example C21_bad_names : 
  (forall e m, wrap_est (SelName "sharde") m e = Err AttributeError) /\ (forall e m, wrap_est SelOther m e = Err ValueError) /\
  (forall e m, wrap_est (SelCall (fun _ _ => None)) m e = Err ValueError).
Proof. repeat split. Qed.

Example C21_nested_ex :
  let inner := make_da_pipeline [SEst None sc; SEst None lr] (SelName "per_domain") true [] in
  match inner with
  | Ok (h, p) => 
      match make_da_pipeline [SEst None sc; SPipe (Some "in"%string) p; SEst None nb] (SelName "shared") true h with
      | Ok (h', named) => (map fst named, map (fun q => option_map sl_final (nth_error h' (snd q))) named,
                           map (fun q => option_map sl_cls (nth_error h' (snd q))) named)
      | Err _ => ([], [], [])
      end
  | Err _ => ([], [], [])
  end = (["standardscaler"; "in__perdomain_standardscaler"; "in__perdomain_logisticregression"; "gaussiannb"]%string,
         [Some false; Some false; Some false; Some true], [Some CShared; Some CPerDomain; Some CPerDomain; Some CShared]).
Proof. reflexivity. Qed.

(** ** C22 *)

Theorem C22_masking_stops_at_label_predictor_partial : forall steps nm cls mask h,
  (nm = "shared"%string /\ cls = CShared) \/ (nm = "per_domain"%string /\ cls = CPerDomain) ->
  flat_map flat_step steps <> [] ->
  (forall i, In i (nested_ids steps) -> i < length h) ->
  NoDup (nested_ids steps) ->
  (forall n i s, In (SSel n i) steps -> nth_error h i = Some s -> sl_final s = false) ->
  exists h' named, make_da_pipeline steps (SelName nm) mask h = Ok (h', named) /\
    forall k u it, nth_error (flat_map flat_step steps) k = Some (u, it) ->
      exists n i s, nth_error named k = Some (n, i) /\ nth_error h' i = Some s /\
        match it with
        | ISel j => i = j /\ exists s0, nth_error h j = Some s0 /\ sl_mask s = sl_mask s0
        | IEst e => (no_predictor_upto (map snd (flat_map flat_step steps)) k -> sl_mask s = mask) /\
            (forall k' u' e', k' <= k -> nth_error (flat_map flat_step steps) k' = Some (u', IEst e') ->
                              e_predicts e' = true -> sl_mask s = false)
        end.
Proof.
  intros steps nm cls mask h H1 H2 H3 H4 H5.
  destruct (make_named_ok steps nm cls mask h H1 H2 H3 H4 H5) as [h' [named [M [L [ND P]]]]].
  exists h', named. split; auto. intros k u it Hk.
  destruct (P k u it Hk) as [n [i [s [N1 [N2 [N3 [N4 N5]]]]]]]. exists n, i, s. split; auto. split; auto.
  destruct it as [e|j].
  - destruct N5 as [A [B [C [D E]]]]. split; auto. intros k' u' e' Hk' He Hp. apply E. exists k', e'. split; auto. split; auto.
    rewrite nth_error_map, He. reflexivity.
  - destruct N5 as [-> [s0 [A [B [C D]]]]]. split; auto. exists s0. auto.
Qed.

(** A label-predicting step that is already wrapped in a selector does not switch masking off: it and the steps after
    it still mask. *)
Theorem C22_prewrapped_predictor_refuted : exists steps h h' named,
  make_da_pipeline steps (SelName "shared") true h = Ok (h', named) /\
  map (fun q => option_map (fun s => (e_predicts (sl_base s), sl_mask s)) (nth_error h' (snd q))) named
  = [Some (true, true); Some (false, true)].
Proof.
  exists [SSel None 0; SEst None nb], [mkSel CShared jcpot true false]. do 2 eexists. split; reflexivity.
Qed.

Example C22_ex :
  match make_da_pipeline [SEst None sc; SEst None jcpot; SEst None sc; SEst None nb] (SelName "shared") true [] with
  | Ok (h', named) => map (fun q => option_map sl_mask (nth_error h' (snd q))) named
  | Err _ => []
  end = [Some true; Some false; Some false; Some false].
Proof. reflexivity. Qed.

(** ** C74 *)

(** Cloning a selector whose masking setting is the default of its class keeps class, estimator and masking, hence
    the fit call on every input. *)
Theorem C74_clone_default_masking_partial : forall s,
  sl_cls s <> CSourceTarget ->
  (sl_mask s = match sl_cls s with CShared | CPerDomain | CSelectSource => true | _ => false end) ->
  exists s', clone_sel s = Ok s' /\ sl_cls s' = sl_cls s /\ sl_base s' = sl_base s /\ sl_mask s' = sl_mask s.
Proof.
  intros s Hc H. unfold clone_sel. rewrite <- H.
  destruct (sl_cls s) eqn:E; try congruence; eexists; (split; [reflexivity|]); cbn; auto.
Qed.

(** A SelectSourceTarget cannot be cloned at all, so neither can a pipeline containing one. *)
Theorem C74_source_target_clone_fails_refuted : forall s, sl_cls s = CSourceTarget ->
  clone_sel s = Err AttributeError.
Proof. intros s H. unfold clone_sel. rewrite H. reflexivity. Qed.

(** A Shared selector built with mask_target_labels=False masks again once cloned: the wrapped estimator is fitted on
    different labels (here, the target sample disappears from its training set). *)
Theorem C74_clone_reenables_masking_refuted : exists s s' (X : list nat) y ps r1 r2,
  sl_mask s = false /\ clone_sel s = Ok s' /\
  shared_fit (fun _ => Ok []) false (sl_mask s) (from_array X) (Some y) ps = Ok r1 /\
  shared_fit (fun _ => Ok []) false (sl_mask s') (from_array X) (Some y) ps = Ok r2 /\
  k_X (snd r1) = X /\ length (k_X (snd r2)) < length X.
Proof.
  exists (mkSel CShared lr false false), (mkSel CShared lr true false), [10;20;30], [VNum 0; VNum 1; VNum 1], [("sample_domain"%string, PDom [1;1;-2]%Z)].
  do 2 eexists. split; [reflexivity|]. split; [reflexivity|]. split; [reflexivity|]. split; [reflexivity|].
  split; [reflexivity|]. vm_compute. auto.
Qed.

(** The final flag is lost as well: no step of a cloned pipeline is final. *)
Theorem C74_clone_loses_final_refuted : exists h p,
  make_da_pipeline [SEst None sc; SEst None lr] (SelName "shared") true [] = Ok (h, p) /\
  map (fun q => option_map sl_final (nth_error h (snd q))) p = [Some false; Some true] /\
  map (fun q => match option_map clone_sel (nth_error h (snd q)) with Some (Ok s') => Some (sl_final s') | _ => None end) p
    = [Some false; Some false].
Proof. do 2 eexists. repeat (split; [reflexivity|]). reflexivity. Qed.

Example C74_ex : clone_sel (mkSel CPerDomain nb true true) = Ok (mkSel CPerDomain nb true false).
Proof. reflexivity. Qed.

(** ** C75 *)

(** Using a pipeline as a step of another one changes it: its last step is no longer final. *)
Theorem C75_nesting_changes_inner_refuted : exists h p h' named i s s',
  make_da_pipeline [SEst None sc; SEst None lr] (SelName "shared") true [] = Ok (h, p) /\
  make_da_pipeline [SPipe None p; SEst None nb] (SelName "shared") true h = Ok (h', named) /\
  option_map snd (nth_error p 1) = Some i /\
  nth_error h i = Some s /\ nth_error h' i = Some s' /\ sl_final s = true /\ sl_final s' = false.
Proof. do 7 eexists. repeat (split; [reflexivity|]). reflexivity. Qed.

(** Nothing but the final flag of the selectors given is changed, and nothing at all of other selectors. *)
Theorem C75_nesting_frame_partial : forall steps nm cls mask h,
  (nm = "shared"%string /\ cls = CShared) \/ (nm = "per_domain"%string /\ cls = CPerDomain) ->
  flat_map flat_step steps <> [] ->
  (forall i, In i (nested_ids steps) -> i < length h) ->
  NoDup (nested_ids steps) ->
  exists h' named, make_da_pipeline steps (SelName nm) mask h = Ok (h', named) /\
    forall j s, nth_error h j = Some s -> exists s', nth_error h' j = Some s' /\
      sl_cls s' = sl_cls s /\ sl_base s' = sl_base s /\ sl_mask s' = sl_mask s /\
      (~ In j (nested_ids steps) -> s' = s).
Proof.
  intros steps nm cls mask h Hc Hne Hv Hnd.
  destruct (flatten_ok steps h) as [h1 [F1 [F2 F3]]].
  destruct (wrap_all_ok cls nm mask (map snd (flat_map flat_step steps)) h1 Hc) as [h2 [ids [W1 [W2 [W3 [W4 [W5 [W6 [W7 W8]]]]]]]]].
  { intros i Hi. rewrite F2. apply Hv. rewrite <- pipe_ids_flat_eq. apply in_flat_map. exists (ISel i). split; auto. now left. }
  rewrite map_length in W2.
  assert (Hnames : exists names, mapM (fun i => match nth_error h2 i with Some s => Ok (base_name s) | None => Err AttributeError end) ids = Ok names).
  { assert (G : forall l, (forall j, In j l -> j < length h2) ->
      exists names, mapM (fun i => match nth_error h2 i with Some s => Ok (base_name s) | None => Err AttributeError end) l = Ok names).
    { induction l as [|j l IH]; intros Hl; [exists []; reflexivity|].
      destruct (nth_error_lt_some h2 j (Hl j (or_introl eq_refl))) as [s Hs].
      destruct IH as [ns Hns]; [intros; apply Hl; now right|]. exists (base_name s :: ns).
      cbn [mapM]. rewrite Hs. cbn [bind]. now rewrite Hns. }
    apply G. intros j Hj. now apply W8. }
  destruct Hnames as [names Hnames].
  destruct (rev ids) as [|i0 r] eqn:Er.
  { exfalso. apply Hne. assert (ids = []) by (rewrite <- (rev_involutive ids), Er; reflexivity). subst ids.
    simpl in W2. now destruct (flat_map flat_step steps). }
  eexists. eexists. split.
  { unfold make_da_pipeline. destruct steps as [|st steps']; [now simpl in Hne|]. rewrite F1. rewrite W1. cbn [bind]. rewrite Hnames.
    cbn [bind]. rewrite Er. reflexivity. }
  intros j s Hs. assert (Lj : j < length h) by (apply nth_error_Some; congruence).
  assert (E2 : nth_error h2 j = Some (if existsb (Nat.eqb j) (pipe_ids steps) then set_final false s else s)).
  { rewrite W3 by lia. now apply F3. }
  rewrite mark_lookup, E2. simpl. eexists. split; [reflexivity|].
  assert (Sub : forall q, In q (pipe_ids steps) -> In q (nested_ids steps)).
  { intros q. unfold pipe_ids, nested_ids. rewrite !in_flat_map. intros [st [A B]]. exists st. split; auto. destruct st; easy. }
  assert (I0 : In i0 ids) by (rewrite in_rev, Er; now left).
  destruct (Nat.eqb_spec j i0) as [->|Nj]; destruct (existsb (Nat.eqb _) (pipe_ids steps)) eqn:Ex; destruct s; simpl;
    (split; [auto|]; split; [auto|]; split; [auto|]); intros Hn; auto;
    try (exfalso; apply Hn; apply Sub; now apply existsb_eqb_In).
  exfalso. destruct (W8 _ I0) as [[A|A] _]; [|lia]. apply Hn. rewrite <- pipe_ids_flat_eq. apply in_flat_map.
  exists (ISel i0). split; auto. now left.
Qed.
