(** Theorems C136-C140 and C142-C144: deep modules, nets and the functions building them. *)
From Coq Require Import String List ZArith QArith Bool Arith Lia Reals Lra Permutation.
From Verif Require Import Np NpFacts Labels RVec RVecFacts Spec SpecFacts UtilsProofs LossModel LossProofs DeepModel DeepSpec DeepProofs DeepProofs2 DeepProofs3 ThmDeep
  CallModel ThmCall NetModel NetSpec NetProofs NetProofs2.
Import ListNotations.
Local Open Scope nat_scope.
Local Open Scope list_scope.

Section Memory.
  Variables W X T F D : Type.
  Variable flatten : T -> res F.
  Notation heap := (heap W X T F D).
  Notation history := (history W X T F D flatten).
  Notation bases := (h_bases W X T F D).
  Notation mods := (h_mods W X T F D).
  Notation base := (m_base T F D).
  Notation layer := (m_layer T F D).
  Notation forward := (forward W X T F D flatten).
  Notation code_of := (b_code W X T).
  Notation layers := (c_layers W X T).
  Notation run o x := (c_run W X T (b_code W X T o) (b_w W X T o) x).

(** The features a call returns, if any. *)
Definition returned (o : output T F D) : option F := match o with OutFit _ _ _ _ _ f => f | OutPred _ _ _ _ => None | OutBoth _ _ _ _ f => Some f end.

(** C136. Whatever was built, cloned, called and trained before: features returned by a call come from the layer asked for, for the input of this call. *)
Theorem C136_features : forall es grad m o ob l x trace y out weighted is_fit return_features h' r f,
  nth_error (mods (history es)) m = Some o -> layer o = Some l ->
  nth_error (bases (history es)) (base o) = Some ob -> In l (layers (code_of ob)) ->
  run ob x = (trace, Ok y) -> last_output l (trace ++ [(EmptyString, y)]) out ->
  forward grad (history es) m x weighted is_fit return_features = (h', Ok r) -> returned r = Some f ->
  flatten out = Ok f.
Proof.
  intros es grad m o ob l x trace y out weighted is_fit rf h' r f Em El Eb Il Er Ho E Ef.
  pose proof (inv_history W X T F D flatten es) as I. pose proof (nth_error_In _ _ Em) as Io.
  assert (K : forall kw h1 y1 g, call_base W X T F D flatten grad kw (history es) (base o) x = (h1, Ok y1) -> features_of W X T F D h1 o = Ok g -> flatten out = Ok g).
  { intros kw h1 y1 g C G. destruct (call_features W X T F D flatten grad kw _ o ob x trace y l I Io Eb Er El Il out Ho h1 y1 C) as (_ & g' & A & B).
    rewrite B in G. injection G as <-. exact A. }
  unfold NetModel.forward in E. rewrite Em in E. destruct (m_cdan _ _ _ o).
  - unfold forward_cdan in E. destruct weighted; [discriminate|]. unfold lift in E.
    destruct (call_base W X T F D flatten grad false (history es) (base o) x) as [h1 [y1|e]] eqn:C; cbn [fst snd] in E; [|discriminate].
    injection E as <- E. destruct is_fit.
    + destruct (features_of W X T F D h1 o) as [g|] eqn:G; [|discriminate]. cbn [bind] in E. destruct (m_dc _ _ _ o) as [c|]; [|discriminate].
      destruct (c y1 (Some g)); [|discriminate]. injection E as <-. injection Ef as <-. eapply K; eassumption.
    + destruct rf; [|injection E as <-; discriminate]. destruct (features_of W X T F D h1 o) as [g|] eqn:G; [|discriminate].
      injection E as <-. injection Ef as <-. eapply K; eassumption.
  - unfold forward_plain in E. destruct is_fit; unfold lift in E.
    + destruct (call_base W X T F D flatten grad weighted (history es) (base o) x) as [h1 [y1|e]] eqn:C; cbn [fst snd] in E; [|discriminate].
      injection E as <- E. rewrite El in E. destruct (features_of W X T F D h1 o) as [g|] eqn:G; [|discriminate]. cbn [bind] in E.
      assert (Eg : returned r = Some g).
      { destruct (m_dc _ _ _ o) as [c|]; [destruct (c y1 (Some g)); [|discriminate]|]; cbn [bind] in E; injection E as <-; reflexivity. }
      rewrite Ef in Eg. injection Eg as ->. eapply K; eassumption.
    + destruct (call_base W X T F D flatten grad true (history es) (base o) x) as [h1 [y1|e]] eqn:C; cbn [fst snd] in E; [|discriminate].
      injection E as <- E. destruct rf; [|injection E as <-; discriminate]. destruct (features_of W X T F D h1 o) as [g|] eqn:G; [|discriminate].
      injection E as <-. injection Ef as <-. eapply K; eassumption.
Qed.

(** And they are returned, together with the output of the user's module. *)
Theorem C136_returned : forall es grad m o ob l x trace y out f,
  nth_error (mods (history es)) m = Some o -> layer o = Some l -> m_cdan _ _ _ o = None ->
  nth_error (bases (history es)) (base o) = Some ob -> In l (layers (code_of ob)) ->
  run ob x = (trace, Ok y) -> last_output l (trace ++ [(EmptyString, y)]) out -> flatten out = Ok f ->
  (forall n t, In (n, t) (trace ++ [(EmptyString, y)]) -> exists g, flatten t = Ok g) ->
  (m_dc _ _ _ o = None -> snd (forward grad (history es) m x false true false) = Ok (OutFit _ _ _ y None (Some f))) /\
  (c_takes_weight _ _ _ (code_of ob) = true -> snd (forward grad (history es) m x false false true) = Ok (OutBoth _ _ _ y f)).
Proof.
  intros es grad m o ob l x trace y out f Em El Ec Eb Il Er Ho Ef Hf.
  pose proof (inv_history W X T F D flatten es) as I. pose proof (nth_error_In _ _ Em) as Io.
  assert (K : forall kw, (kw = true -> c_takes_weight _ _ _ (code_of ob) = true) ->
            exists h1, call_base W X T F D flatten grad kw (history es) (base o) x = (h1, Ok y) /\ features_of W X T F D h1 o = Ok f).
  { intros kw Hk. destruct (call_ok W X T F D flatten grad kw _ _ ob x trace y Eb Er Hk Hf) as [h1 C]. exists h1. split; [exact C|].
    destruct (call_features W X T F D flatten grad kw _ o ob x trace y l I Io Eb Er El Il out Ho h1 y C) as (_ & g & A & B). congruence. }
  unfold NetModel.forward. rewrite Em, Ec. unfold forward_plain, lift. split.
  - intros Hd. destruct (K false) as (h1 & C & G); [discriminate|]. rewrite C. cbn [fst snd]. rewrite El, G, Hd. reflexivity.
  - intros Hw. destruct (K true) as (h1 & C & G); [auto|]. rewrite C. cbn [fst snd]. rewrite G. reflexivity.
Qed.

(** A name that is not the name of a layer is never served: training raises, and the exception is KeyError if the module itself works. *)
Theorem C136_unknown_layer : forall es grad m o ob l x weighted,
  nth_error (mods (history es)) m = Some o -> layer o = Some l ->
  nth_error (bases (history es)) (base o) = Some ob -> ~ In l (layers (code_of ob)) ->
  (exists e, snd (forward grad (history es) m x weighted true false) = Err e) /\
  (forall trace y, m_cdan _ _ _ o = None -> run ob x = (trace, Ok y) -> (forall n t, In (n, t) (trace ++ [(EmptyString, y)]) -> exists g, flatten t = Ok g) ->
     snd (forward grad (history es) m x false true false) = Err KeyError).
Proof.
  intros es grad m o ob l x weighted Em El Eb Nl.
  pose proof (inv_history W X T F D flatten es) as I. pose proof (nth_error_In _ _ Em) as Io.
  assert (K : forall kw, features_of W X T F D (fst (call_base W X T F D flatten grad kw (history es) (base o) x)) o = Err KeyError).
  { intros kw. destruct (inv_call W X T F D flatten grad kw _ (base o) x I) as [A B].
    destruct (call_mods W X T F D flatten grad kw (history es) (base o) x) as [Cm Cb].
    rewrite <- Cm in Io. rewrite <- Cb in Eb. destruct (A o Io) as (ob' & Eb' & L & H1 & H2). rewrite Eb in Eb'. injection Eb' as <-.
    unfold features_of. rewrite El. destruct (dict_get F _ l) as [[f b]|] eqn:G; [|reflexivity].
    exfalso. apply Nl. destruct (B _ _ Eb _ (H2 _ _ G)) as (_ & Q & _). exact Q. }
  unfold NetModel.forward. rewrite Em. split.
  - destruct (m_cdan _ _ _ o).
    + unfold forward_cdan. destruct weighted; [eexists; reflexivity|]. unfold lift. specialize (K false).
      destruct (call_base W X T F D flatten grad false (history es) (base o) x) as [h1 [y1|e]]; cbn [fst snd] in *; [|eexists; reflexivity].
      rewrite K. eexists; reflexivity.
    + unfold forward_plain, lift. specialize (K weighted).
      destruct (call_base W X T F D flatten grad weighted (history es) (base o) x) as [h1 [y1|e]]; cbn [fst snd] in *; [|eexists; reflexivity].
      rewrite El, K. eexists; reflexivity.
  - intros trace y Ec Er Hf. rewrite Ec. unfold forward_plain, lift.
    destruct (call_ok W X T F D flatten grad false _ _ ob x trace y Eb Er ltac:(discriminate) Hf) as [h1 C]. specialize (K false). rewrite C in *.
    cbn [fst snd] in *. rewrite El, K. reflexivity.
Qed.

(** ** C137: clones and repeated fits *)
  Variable step : X -> output T F D -> W -> W.
  Notation net_fit := (net_fit W X T F D flatten step).
  Notation net_clone := (net_clone W X T F D).

(** A clone has the code and the weights of the original, and training one of the two leaves the other alone. *)
Theorem C137_independent : forall h t h1 c, net_clone h t = Ok (h1, c) ->
  (exists o o', nth_error (bases h1) (t_base _ _ _ t) = Some o /\ nth_error (bases h1) (t_base _ _ _ c) = Some o' /\
     code_of o' = code_of o /\ b_w _ _ _ o' = b_w _ _ _ o) /\
  (forall batches, nth_error (bases (fst (net_fit h1 c batches))) (t_base _ _ _ t) = nth_error (bases h1) (t_base _ _ _ t)) /\
  (forall batches, nth_error (bases (fst (net_fit h1 t batches))) (t_base _ _ _ c) = nth_error (bases h1) (t_base _ _ _ c)).
Proof.
  intros h t h1 c E. unfold NetModel.net_clone in E. destruct (deepcopy W X T F D h (t_base _ _ _ t)) as [h2|] eqn:C; [|discriminate].
  cbn [bind] in E. injection E as -> <-. cbn [t_base]. destruct (deepcopy_bases W X T F D h _ _ C) as (o & o' & Eo & Eb & Hc & Hw).
  assert (L : t_base _ _ _ t < length (bases h)) by (apply nth_error_Some; congruence).
  split; [|split].
  - exists o, o'. rewrite Eb. rewrite nth_error_app1 by exact L. rewrite nth_error_app2 by lia. rewrite Nat.sub_diag. auto.
  - intros batches. apply fit_other. cbn [t_base]. lia.
  - intros batches. apply fit_other. lia.
Qed.

(** A fitted net keeps its settings and has a module of its own, made by this fit, on its base module; the modules made before are left. *)
Theorem C137_fitted : forall h t bs h1 t1, net_fit h t bs = (h1, Ok t1) ->
  t_base _ _ _ t1 = t_base _ _ _ t /\ t_layer _ _ _ t1 = t_layer _ _ _ t /\ t_dc _ _ _ t1 = t_dc _ _ _ t /\
  exists m o, t_mod _ _ _ t1 = Some m /\ nth_error (mods h) m = None /\ nth_error (mods h1) m = Some o /\ base o = t_base _ _ _ t /\ layer o = t_layer _ _ _ t /\
    (forall m', m' <> m -> nth_error (mods h1) m' = nth_error (mods h) m').
Proof.
  intros h t bs h1 t1 E. unfold NetModel.net_fit, net_init in E.
  assert (K : forall ls s, mods (fst (fold_left (fun s xw => train_batch W X T F D flatten step s (length (mods h)) (t_base _ _ _ t) xw) ls s)) = mods (fst s)).
  { clear E. induction ls as [|xw ls IH]; intros s; [reflexivity|]. cbn [fold_left]. rewrite IH. unfold train_batch. destruct (snd s); [|reflexivity].
    pose proof (forward_bases W X T F D flatten true (fst s) (length (mods h)) (fst xw) (snd xw) true false) as [_ Q].
    destruct (snd (forward true (fst s) _ _ _ _ _)); cbn [fst]; [|exact Q].
    unfold set_weights. destruct (nth_error _ _); exact Q. }
  set (r := fold_left _ bs _) in E. cbv zeta in E. injection E as E1 E2. destruct (snd r); [|discriminate]. injection E2 as <-. cbn [t_base t_layer t_dc t_mod].
  split; [reflexivity|]. split; [reflexivity|]. split; [reflexivity|].
  assert (M : mods h1 = mods h ++ [mkMod _ _ _ (t_base _ _ _ t) (t_layer _ _ _ t) (length (h_dicts _ _ _ _ _ h)) (t_dc _ _ _ t) None]).
  { rewrite <- E1. unfold r. rewrite K. cbn [fst]. unfold new_module. now rewrite register_mods. }
  exists (length (mods h)). eexists. split; [reflexivity|]. split; [apply nth_error_None; lia|]. rewrite M.
  split; [rewrite nth_error_app2, Nat.sub_diag by lia; reflexivity|]. split; [reflexivity|]. split; [reflexivity|].
  intros m' N. destruct (Nat.lt_ge_cases m' (length (mods h))) as [L|L]; [now rewrite nth_error_app1|].
  rewrite (proj2 (nth_error_None (mods h) m')) by lia. apply nth_error_None. rewrite app_length. cbn. lia.
Qed.
(** A clone is not fitted: it refuses to predict. *)
Theorem C137_clone_unfitted : forall h t h1 c xw, net_clone h t = Ok (h1, c) ->
  t_layer _ _ _ c = t_layer _ _ _ t /\ t_dc _ _ _ c = t_dc _ _ _ t /\ snd (net_predict W X T F D flatten h1 c xw) = Err NotFittedError.
Proof.
  intros h t h1 c xw E. unfold NetModel.net_clone in E. destruct (deepcopy _ _ _ _ _ h _) as [h2|]; [|discriminate]. cbn [bind] in E. injection E as _ <-.
  split; [reflexivity|]. split; reflexivity.
Qed.

(** Before any training the copy always succeeds. *)
Theorem C137_untrained : forall es t, (forall grad m x w f r, In (EForward _ _ _ _ _ grad m x w f r) es -> grad = false) ->
  t_base _ _ _ t < length (bases (history es)) -> exists h1 c, net_clone (history es) t = Ok (h1, c).
Proof.
  intros es t G L. destruct (clean_deepcopy_ok W X T F D (history es) (t_base _ _ _ t)) as [h1 E]; [apply clean_history; exact G | exact L|].
  unfold NetModel.net_clone. rewrite E. eexists. eexists. reflexivity.
Qed.

(** After a fit whose last batch went through the layer named, it never does. *)
Theorem C137_trained_refuted : forall es t bs x w h1 t1 l ob trace y out,
  let h := history es in
  net_fit h t (bs ++ [(x, w)]) = (h1, Ok t1) -> t_layer _ _ _ t = Some l ->
  nth_error (bases (fst (net_fit h t bs))) (t_base _ _ _ t) = Some ob -> In l (layers (code_of ob)) ->
  run ob x = (trace, Ok y) -> last_output l (trace ++ [(EmptyString, y)]) out ->
  net_clone h1 t = Err RuntimeError /\ net_clone h1 t1 = Err RuntimeError.
Proof.
  intros es t bs x w h1 t1 l ob trace y out h E El Eb Il Er Ho.
  assert (Lb : t_base _ _ _ t < length (bases h)).
  { destruct (Nat.lt_ge_cases (t_base _ _ _ t) (length (bases h))) as [Q|Q]; [exact Q|].
    exfalso. assert (Ln : forall bs, length (bases (fst (net_fit h t bs))) = length (bases h)).
    { intros bs0. unfold NetModel.net_fit, net_init. cbn [fst].
      assert (G : forall bs s, length (bases (fst (fold_left (fun s xw => train_batch W X T F D flatten step s (length (mods h)) (t_base _ _ _ t) xw) bs s))) = length (bases (fst s))).
      { induction bs1 as [|xw bs1 IH]; intros s; [reflexivity|]. cbn [fold_left]. rewrite IH. unfold train_batch. destruct (snd s); [|reflexivity].
        pose proof (proj1 (forward_bases W X T F D flatten true (fst s) (length (mods h)) (fst xw) (snd xw) true false)) as B.
        destruct (forward true (fst s) (length (mods h)) (fst xw) (snd xw) true false) as [h' r]. cbn [fst snd] in *. destruct r; cbn [fst]; [|rewrite B; reflexivity].
        unfold set_weights. destruct (nth_error (bases h') _); cbn [h_bases]; [rewrite replace_length|]; rewrite B; reflexivity. }
      rewrite G. cbn [fst]. unfold new_module. rewrite register_blength. reflexivity. }
    assert (N : nth_error (bases (fst (net_fit h t bs))) (t_base _ _ _ t) = None) by (apply nth_error_None; rewrite Ln; exact Q). congruence. }
  unfold NetModel.net_fit, net_init in *. cbn [fst] in *.
  set (m := length (mods h)) in *. set (b := t_base _ _ _ t) in *.
  set (hn := new_module W X T F D h b (t_layer _ _ _ t) (t_dc _ _ _ t) None) in *.
  set (o := mkMod T F D b (t_layer _ _ _ t) (length (h_dicts _ _ _ _ _ h)) (t_dc _ _ _ t) None).
  rewrite fold_left_app in E. cbn [fold_left] in E.
  (* what training keeps *)
  assert (Keep : forall bs s, inv W X T F D (fst s) -> mods (fst s) = mods h ++ [o] ->
            inv W X T F D (fst (fold_left (fun s xw => train_batch W X T F D flatten step s m b xw) bs s)) /\
            mods (fst (fold_left (fun s xw => train_batch W X T F D flatten step s m b xw) bs s)) = mods h ++ [o]).
  { induction bs0 as [|xw bs0 IH]; intros s Hi Hm; [split; assumption|]. cbn [fold_left].
    apply IH; unfold train_batch; destruct (snd s); auto;
    pose proof (forward_bases W X T F D flatten true (fst s) m (fst xw) (snd xw) true false) as [B1 B2];
    pose proof (inv_forward W X T F D flatten true (fst s) m (fst xw) (snd xw) true false Hi) as B3;
    destruct (forward true (fst s) m (fst xw) (snd xw) true false) as [h' r]; cbn [fst snd] in *; destruct r; cbn [fst].
    - apply inv_set_weights. exact B3.
    - exact B3.
    - rewrite set_weights_mods, B2. exact Hm.
    - rewrite B2. exact Hm. }
  destruct (Keep bs (hn, Ok tt)) as [Ki Km].
  { apply inv_new_module; [apply inv_history | exact Lb]. }
  { apply new_module_mods. }
  set (s := fold_left (fun s xw => train_batch W X T F D flatten step s m b xw) bs (hn, Ok tt)) in *.
  assert (Em : nth_error (mods (fst s)) m = Some o) by (rewrite Km, nth_error_app2 by (unfold m; lia); unfold m; rewrite Nat.sub_diag; reflexivity).
  unfold train_batch in E. destruct (snd s) eqn:Es; [|rewrite Es in E; discriminate].
  cbn [fst snd] in E. destruct (forward true (fst s) m x w true false) as [h2 r2] eqn:Ef. cbn [fst snd] in E.
  destruct r2 as [o2|]; [|discriminate]. cbn [fst snd] in E. injection E as <- <-.
  pose proof (forward_attached W X T F D flatten (fst s) m o ob x w trace y l out h2 o2 Ki Em eq_refl Eb Er El Il Ho Ef) as At.
  (* the hook *)
  pose proof (forward_bases W X T F D flatten true (fst s) m x w true false) as [B1 B2]. rewrite Ef in B1, B2. cbn [fst] in B1, B2.
  assert (Io : In o (mods (fst s))) by (eapply nth_error_In; exact Em).
  destruct (proj1 Ki o Io) as (ob' & Eb' & _ & H1 & _). cbn [o m_base] in Eb'. rewrite Eb in Eb'. injection Eb' as <-.
  specialize (H1 l El Il).
  assert (R : deepcopy W X T F D (set_weights W X T F D h2 b (step x o2)) b = Err RuntimeError).
  { unfold deepcopy. rewrite (set_weights_own W X T F D h2 b (step x o2) ob) by (rewrite B1; exact Eb). cbn [b_hooks]. rewrite set_weights_dicts.
    replace (existsb _ (b_hooks _ _ _ ob)) with true; [reflexivity|]. symmetry. apply existsb_exists. exists (l, m_dict _ _ _ o). split; [exact H1|]. exact At. }
  unfold NetModel.net_clone. cbn [t_base]. fold b. rewrite R. split; reflexivity.
Qed.

(** ** C138: sample weights *)

(** A base module with a parameter sample_weight can be used for prediction whenever it runs, with and without weights. *)
Theorem C138_with_parameter : forall es m o ob x trace y weighted,
  nth_error (mods (history es)) m = Some o -> m_cdan _ _ _ o = None -> nth_error (bases (history es)) (base o) = Some ob ->
  c_takes_weight _ _ _ (code_of ob) = true -> run ob x = (trace, Ok y) ->
  (forall n t, In (n, t) (trace ++ [(EmptyString, y)]) -> exists g, flatten t = Ok g) ->
  snd (forward false (history es) m x weighted false false) = Ok (OutPred _ _ _ y).
Proof.
  intros es m o ob x trace y weighted Em Ec Eb Hw Er Hf. unfold NetModel.forward. rewrite Em, Ec. unfold forward_plain, lift.
  destruct (call_ok W X T F D flatten false true _ _ ob x trace y Eb Er (fun _ => Hw) Hf) as [h1 C]. rewrite C. reflexivity.
Qed.
(** Without such a parameter no prediction is possible, although training without weights is. *)
Theorem C138_no_parameter_refuted : forall es m o ob x trace y weighted return_features,
  nth_error (mods (history es)) m = Some o -> m_cdan _ _ _ o = None -> nth_error (bases (history es)) (base o) = Some ob ->
  c_takes_weight _ _ _ (code_of ob) = false -> run ob x = (trace, Ok y) ->
  snd (forward false (history es) m x weighted false return_features) = Err TypeError /\
  (layer o = None -> m_dc _ _ _ o = None -> (forall n t, In (n, t) (trace ++ [(EmptyString, y)]) -> exists g, flatten t = Ok g) ->
   snd (forward true (history es) m x false true false) = Ok (OutFit _ _ _ y None None)).
Proof.
  intros es m o ob x trace y weighted rf Em Ec Eb Hw Er. unfold NetModel.forward. rewrite Em, Ec. unfold forward_plain, lift. split.
  - unfold call_base. rewrite Eb, Hw. reflexivity.
  - intros El Ed Hf. destruct (call_ok W X T F D flatten true false _ _ ob x trace y Eb Er ltac:(discriminate) Hf) as [h1 C]. rewrite C. cbn [fst snd].
    rewrite El, Ed. reflexivity.
Qed.
(** The module of CDAN takes no sample weights at all. *)
Theorem C138_cdan_weights_refuted : forall h m o grad x is_fit rf p, nth_error (mods h) m = Some o -> m_cdan _ _ _ o = Some p ->
  snd (forward grad h m x true is_fit rf) = Err TypeError.
Proof. intros h m o grad x is_fit rf p Em Ec. unfold NetModel.forward. rewrite Em, Ec. reflexivity. Qed.
End Memory.

(** A concrete module: one weight, the layer "feat" adds it to the input, the output is twice that. *)
Local Open Scope string_scope.
Definition ex_run (w x : nat) : list (string * nat) * res nat := ([("feat", w + x)], Ok (2 * (w + x))).
Definition ex_code : code nat nat nat := mkCode _ _ _ [""; "feat"] true ex_run.
Definition ex_seq : code nat nat nat := mkCode _ _ _ [""; "feat"] false ex_run.
Definition ex_flat (t : nat) : res nat := Ok t.
Definition ex_step (x : nat) (o : output nat nat nat) (w : nat) : nat := S w.
Definition ex_net : net nat nat nat := mkNet _ _ _ 0 (Some "feat") None None.
Definition ex_h (c : code nat nat nat) : heap nat nat nat nat nat := history nat nat nat nat nat ex_flat [ENewBase _ _ _ _ _ c 7].
Notation ex_fit := (net_fit nat nat nat nat nat ex_flat ex_step).
Notation ex_predict := (net_predict nat nat nat nat nat ex_flat).

(** Two modules on one base module and a clone; the clone of the second is asked for the features of 5. *)
Example C136_ex : let es := [ENewBase _ _ _ _ _ ex_code 7; ENewModule _ _ _ _ _ 0 (Some "feat") None None; EForward _ _ _ _ _ true 0 1 false true false;
    EForward _ _ _ _ _ false 0 3 false false false; EClone _ _ _ _ _ 0; EStep _ _ _ _ _ 1 S; EForward _ _ _ _ _ false 1 2 false false true] in
  snd (forward nat nat nat nat nat ex_flat true (history nat nat nat nat nat ex_flat es) 1 5 false true false) = Ok (OutFit _ _ _ 26 None (Some 13)).
Proof. reflexivity. Qed.
Example C136_unknown_ex : let es := [ENewBase _ _ _ _ _ ex_code 7; ENewModule _ _ _ _ _ 0 (Some "faet") None None] in
  snd (forward nat nat nat nat nat ex_flat true (history nat nat nat nat nat ex_flat es) 0 5 false true false) = Err KeyError.
Proof. reflexivity. Qed.

(** C137: the second fit starts from the weights of the first; so do clones. *)
Theorem C137_refit_refuted : exists h1 t1 h2 t2, ex_fit (ex_h ex_code) ex_net [(1, false); (2, false)] = (h1, Ok t1) /\
  ex_fit h1 t1 [(1, false); (2, false)] = (h2, Ok t2) /\
  snd (ex_predict h1 t1 (5, false)) = Ok 28 /\ snd (ex_predict h2 t2 (5, false)) = Ok 32.
Proof. eexists. eexists. eexists. eexists. split; [reflexivity|]. split; [reflexivity|]. split; reflexivity. Qed.
Theorem C137_clone_weights_refuted : exists h1 t1 h2 h3 c h4 c1, ex_fit (ex_h ex_code) ex_net [(1, false)] = (h1, Ok t1) /\
  h2 = fst (ex_predict h1 t1 (5, false)) /\ net_clone nat nat nat nat nat h2 t1 = Ok (h3, c) /\
  ex_fit h3 c [] = (h4, Ok c1) /\ snd (ex_predict h4 c1 (5, false)) = Ok 26 /\
  snd (ex_predict (fst (ex_fit (ex_h ex_code) ex_net [])) (mkNet _ _ _ 0 (Some "feat") None (Some 0)) (5, false)) = Ok 24.
Proof. do 7 eexists. split; [reflexivity|]. split; [reflexivity|]. split; [reflexivity|]. split; [reflexivity|]. split; reflexivity. Qed.
(** A clone of a CDAN module has the default number of random features and the default seed. *)
Theorem C137_cdan_refuted : exists es h m, clone_module nat nat nat nat nat (history nat nat nat nat nat ex_flat es) 0 = Ok h /\
  nth_error (h_mods _ _ _ _ _ (history nat nat nat nat nat ex_flat es)) 0 = Some m /\ m_cdan _ _ _ m = Some (100, 0%Z) /\
  option_map (m_cdan _ _ _) (nth_error (h_mods _ _ _ _ _ h) 1) = Some (Some (4096, 42%Z)).
Proof.
  exists [ENewBase _ _ _ _ _ ex_code 7; ENewModule _ _ _ _ _ 0 (Some "feat") None (Some (100, 0%Z))]. eexists. eexists.
  split; [reflexivity|]. split; [reflexivity|]. split; reflexivity.
Qed.
Example C137_trained_ex : exists h1 t1, ex_fit (ex_h ex_code) ex_net [(1, false)] = (h1, Ok t1) /\ net_clone nat nat nat nat nat h1 t1 = Err RuntimeError.
Proof. eexists. eexists. split; reflexivity. Qed.
Example C137_independent_ex : exists h1 c, net_clone nat nat nat nat nat (ex_h ex_code) ex_net = Ok (h1, c).
Proof. eexists. eexists. reflexivity. Qed.
Example C138_ex : exists h1 t1, ex_fit (ex_h ex_seq) ex_net [(1, false)] = (h1, Ok t1) /\ snd (ex_predict h1 t1 (1, false)) = Err TypeError.
Proof. eexists. eexists. split; reflexivity. Qed.
Local Close Scope string_scope.

(** ** C139: the non-linearity of predict_proba *)
Section Proba.
  Context {Row : Type}.
  Variable row_ok : Row -> bool.
  Variables outputs feats : list (item Row) -> list (list R).
  Variable bs : nat.
  Notation proba := (net_predict_proba Row row_ok outputs bs).
  Notation labels := (net_predict_labels Row row_ok outputs bs).

Lemma softmax_probabilities r : r <> [] -> probabilities (softmax r).
Proof.
  intros NE. assert (S1 : vsum (softmax r) = 1%R).
  { unfold softmax. pose proof (exp_sum_pos r NE) as P. 
    assert (G : forall c l, vsum (map (fun x => exp x / c)%R l) = (vsum (map exp l) / c)%R).
    { intros c. induction l as [|x l IH]; cbn [map vsum]; [unfold Rdiv; ring|]. rewrite IH. unfold Rdiv. ring. }
    rewrite G. field. lra. }
  split; [|exact S1]. apply Forall_forall. intros p I. split; [left; eapply softmax_pos; exact I|]. rewrite <- S1.
  assert (G : forall l, (forall q, In q l -> (0 <= q)%R) -> forall p, In p l -> (p <= vsum l)%R).
  { induction l as [|q l IH]; intros H p0 I0; [destruct I0|]. cbn [vsum].
    assert (V : (0 <= vsum l)%R).
    { clear - H. assert (H' : forall q, In q l -> (0 <= q)%R) by (intros; apply H; right; assumption). clear H.
      induction l as [|z l IH]; [cbn; lra|]. cbn [vsum]. pose proof (H' z (or_introl eq_refl)). assert (0 <= vsum l)%R by (apply IH; intros; apply H'; right; assumption). lra. }
    destruct I0 as [<-|I0]; [lra|]. pose proof (IH (fun q' I' => H q' (or_intror I')) p0 I0). pose proof (H q (or_introl eq_refl)). lra. }
  apply G; [|exact I]. intros q Iq. left. eapply softmax_pos; exact Iq.
Qed.

Lemma argmin_aux_mono (f : R -> R) : (forall a b, Rltb (f a) (f b) = Rltb a b) ->
  forall l best bi k, argmin_aux (f best) bi k (map f l) = argmin_aux best bi k l.
Proof.
  intros H. induction l as [|x l IH]; intros best bi k; [reflexivity|]. cbn [map argmin_aux]. rewrite H. destruct (Rltb x best); apply IH.
Qed.
Lemma argmax_softmax r : np_argmax (softmax r) = np_argmax r.
Proof.
  destruct r as [|x r]; [reflexivity|]. pose proof (exp_sum_pos (x :: r) ltac:(discriminate)) as P.
  unfold np_argmax, softmax. set (c := vsum (map exp (x :: r))) in *. clearbody c.
  set (g := fun z : R => (- (exp (- z) / c))%R).
  assert (E : forall l, map Ropp (map (fun x => exp x / c)%R l) = map g (map Ropp l)).
  { intros l. rewrite !map_map. apply map_ext. intros a. unfold g. rewrite Ropp_involutive. reflexivity. }
  rewrite E. cbn [map np_argmin]. f_equal. apply argmin_aux_mono. intros a b. unfold g.
  destruct (Rltb a b) eqn:Q.
  - apply Rltb_iff in Q. apply Rltb_iff. apply Ropp_lt_contravar. unfold Rdiv. apply Rmult_lt_compat_r; [apply Rinv_0_lt_compat; exact P|].
    apply exp_increasing. lra.
  - apply Rltb_false in Q. destruct (Rltb _ _) eqn:Q2; [|reflexivity]. apply Rltb_iff in Q2. exfalso.
    apply Ropp_lt_cancel in Q2. unfold Rdiv in Q2. apply Rmult_lt_reg_r in Q2; [|apply Rinv_0_lt_compat; exact P]. apply exp_lt_inv in Q2. lra.
Qed.

(** With the cross entropy as base criterion every row predicted is a probability vector, whatever the outputs of the module. *)
Theorem C139_probabilities : forall x sd w allow P, (forall b r, In r (outputs b) -> r <> []) ->
  proba NLAuto 1 true x sd w allow = Ok P -> Forall probabilities P.
Proof.
  intros x sd w allow P NE E. unfold net_predict_proba in E. cbn [nonlinearity negb bind infer_nonlinearity Nat.eqb] in E.
  unfold predict_proba in E. destruct (prepare_input Row row_ok x None sd w) as [d|]; [|discriminate]. cbn [bind] in E.
  destruct (if allow then Ok d else select_target Row row_ok d true) as [d'|]; [|discriminate]. cbn [bind] in E.
  assert (G : forall l, Forall probabilities (concat (map (fun its => map softmax (outputs its)) l))).
  { intros l. apply Forall_forall. intros r I. apply in_concat in I. destruct I as (q & Iq & Ir). apply in_map_iff in Iq. destruct Iq as (b & <- & _).
    apply in_map_iff in Ir. destruct Ir as (u & <- & Iu). apply softmax_probabilities. eapply NE; exact Iu. }
  destruct (chunks bs (items Row d')) as [|b l]; [discriminate|]. injection E as <-. exact (G (b :: l)).
Qed.
(** The labels predicted do not depend on the choice between "auto" and None: they are the first largest raw outputs. *)
Theorem C139_labels : forall n ce x sd w allow, labels NLAuto n ce x sd w allow = labels NLNone n ce x sd w allow.
Proof.
  intros n ce x sd w allow. unfold net_predict_labels, net_predict_proba. cbn [nonlinearity negb bind]. unfold infer_nonlinearity.
  assert (Id : forall its, map (fun r : list R => r) (outputs its) = outputs its) by (intros; apply map_id).
  destruct (negb (n =? 1)); [reflexivity|]. destruct ce; [|reflexivity].
  unfold predict_proba. destruct (prepare_input Row row_ok x None sd w) as [d|]; [|reflexivity]. cbn [bind].
  destruct (if allow then Ok d else select_target Row row_ok d true) as [d'|]; [|reflexivity]. cbn [bind].
  destruct (chunks bs (items Row d')) as [|b l]; [reflexivity|]. generalize (b :: l). clear b l. intros bl. cbn [bind].
  assert (G : forall rows, mapM np_argmax (map softmax rows) = mapM np_argmax rows).
  { induction rows as [|r rows IH]; [reflexivity|]. cbn [map mapM]. rewrite argmax_softmax, IH. reflexivity. }
  assert (Q : forall bl, concat (map (fun its => map softmax (outputs its)) bl) = map softmax (concat (map (fun its => map (fun r : list R => r) (outputs its)) bl))).
  { induction bl0 as [|b bl0 IH]; [reflexivity|]. cbn [map concat]. rewrite map_app, Id, IH. reflexivity. }
  rewrite Q. apply G.
Qed.
Theorem C139_first_largest : forall r k, np_argmax (softmax r) = Ok k -> first_largest r k.
Proof.
  intros r k E. rewrite argmax_softmax in E. apply np_argmax_spec in E as (L & H1 & H2). exists (nth k r 0%R).
  split; [apply nth_error_nth'; exact L|]. split; intros j y.
  - intros Ej. assert (j < length r) by (apply nth_error_Some; congruence). rewrite <- (nth_error_nth r j 0%R Ej). apply H1. assumption.
  - intros Lt Ej. rewrite <- (nth_error_nth r j 0%R Ej). apply H2. exact Lt.
Qed.
(** A value that is neither a function, "auto" nor None is refused, and nothing is predicted before initialisation. *)
Theorem C139_refused : forall n ce x sd w allow, proba NLOther n ce x sd w allow = Err TypeError /\ nonlinearity false NLAuto n ce = Err NotFittedError.
Proof. intros. split; reflexivity. Qed.

(** ** C140: predict_features *)
Theorem C140_rows : forall g X, (forall b, feats b = map (fun it => g (i_X Row it)) b) -> 0 < bs -> X <> [] -> (forall x, In x X -> row_ok x = true) ->
  predict_features Row row_ok feats bs (InArr Row X) = Ok (map g X).
Proof.
  intros g X HF Hb NE HR. unfold predict_features. cbn [prepare_input].
  destruct (dataset_ok row_ok X None DomNone None HR eq_refl) as (d & A & C & B & _ & E & F0); try (cbn; now rewrite repeat_length); [now left|].
  rewrite A. cbn [bind]. rewrite (predict_ds row_ok g feats HF bs d Hb C). rewrite B. destruct X; [congruence|reflexivity].
Qed.
Theorem C140_dataset : forall g d, (forall b, feats b = map (fun it => g (i_X Row it)) b) -> 0 < bs -> consistent row_ok d -> t_X _ d <> [] ->
  predict_features Row row_ok feats bs (InDs Row d) = Ok (map g (t_X _ d)).
Proof.
  intros g d HF Hb C NE. unfold predict_features. cbn [prepare_input bind]. rewrite (predict_ds row_ok g feats HF bs d Hb C).
  destruct (t_X Row d); [congruence|reflexivity].
Qed.
Theorem C140_empty : predict_features Row row_ok feats bs (InArr Row []) = Err ValueError.
Proof. reflexivity. Qed.
End Proba.

(** With another criterion "auto" leaves the outputs as they are. *)
Theorem C139_other_criterion_refuted : exists outputs P, net_predict_proba nat (fun _ => true) outputs 2 NLAuto 1 false (InArr nat [0]) (DomArr [(-1)%Z]) None false = Ok P /\
  ~ Forall probabilities P.
Proof.
  exists (map (fun _ => [2; -1]%R)), [[2; -1]%R]. split; [reflexivity|]. intros H. inversion H as [|r l [Q _] _]. inversion Q as [|p q [_ Q1] _]. lra.
Qed.
Example C139_ex : net_predict_proba nat (fun _ => true) (map (fun _ => [0; 0]%R)) 2 NLAuto 1 true (InArr nat [0]) (DomArr [(-1)%Z]) None false =
  Ok [[exp 0 / (exp 0 + (exp 0 + 0)); exp 0 / (exp 0 + (exp 0 + 0))]%R].
Proof. reflexivity. Qed.
Example C140_ex : predict_features nat (fun _ => true) (map (fun it => [INR (i_X nat it)])) 2 (InArr nat [4; 5; 6]) = Ok [[INR 4]; [INR 5]; [INR 6]].
Proof. reflexivity. Qed.

(** ** C142: callbacks *)

(** Number of CountEpochs a fit of a net sees if the argument is None or a single callback: one, whatever nets were built before. *)
Definition counts (cbs : list callback) : nat := length (filter is_count cbs).
Theorem C142_default : forall mem k n, let r := spa_callbacks mem CbNone in epochs (nth (snd r) (fst r) []) k n = map (fun i => n + S i) (seq 0 k).
Proof.
  intros mem k n. cbn [spa_callbacks own_callbacks fst snd]. rewrite app_nth2 by lia. rewrite Nat.sub_diag. cbn [nth].
  revert n. induction k as [|k IH]; intros n; [reflexivity|]. cbn [epochs]. rewrite IH. unfold epoch_begin. cbn [filter is_count length seq map].
  f_equal. rewrite <- seq_shift, map_map. apply map_ext. intros i. lia.
Qed.
Theorem C142_single : forall mem c k n, is_count c = false -> let r := spa_callbacks mem (CbOne c) in
  epochs (nth (snd r) (fst r) []) k n = map (fun i => n + S i) (seq 0 k) /\ In c (nth (snd r) (fst r) []).
Proof.
  intros mem c k n H. cbn [spa_callbacks own_callbacks fst snd]. rewrite app_nth2 by lia. rewrite Nat.sub_diag. cbn [nth]. split; [|left; reflexivity].
  revert n. induction k as [|k IH]; intros n; [reflexivity|]. cbn [epochs]. rewrite IH. unfold epoch_begin. cbn [filter is_count length seq map].
  rewrite H. cbn [length]. f_equal. rewrite <- seq_shift, map_map. apply map_ext. intros i. lia.
Qed.
(** A list that is used for one net only. *)
Theorem C142_list_once : forall mem a, a < length mem -> counts (nth a mem []) = 0 -> let r := spa_callbacks mem (CbList a) in
  forall k n, epochs (nth (snd r) (fst r) []) k n = map (fun i => n + S i) (seq 0 k).
Proof.
  intros mem a L H. cbn [spa_callbacks own_callbacks fst snd]. rewrite nth_replace_eq by exact L. intros k.
  induction k as [|k IH]; intros n; [reflexivity|]. cbn [epochs]. rewrite IH. unfold epoch_begin. rewrite filter_app, app_length. unfold counts in H. rewrite H.
  cbn [filter is_count length seq map]. f_equal. rewrite <- seq_shift, map_map. apply map_ext. intros i. lia.
Qed.
(** The user's list is changed, and a second net built with it counts every epoch twice (so does the first from then on). *)
Theorem C142_list_refuted : forall user, counts user = 0 -> let r1 := spa_callbacks [user] (CbList 0) in let r2 := spa_callbacks (fst r1) (CbList 0) in
  nth 0 (fst r1) [] <> user /\ snd r1 = snd r2 /\
  forall k n, epochs (nth (snd r2) (fst r2) []) k n = map (fun i => n + 2 * S i) (seq 0 k).
Proof.
  intros user H. cbn [spa_callbacks own_callbacks fst snd replace nth]. split; [|split; [reflexivity|]].
  - intros E. apply (f_equal (@length callback)) in E. rewrite app_length in E. cbn [length] in E. lia.
  - intros k. induction k as [|k IH]; intros n; [reflexivity|]. cbn [epochs]. rewrite IH. unfold epoch_begin. rewrite !filter_app, !app_length. unfold counts in H. rewrite H.
    cbn [filter is_count length seq map]. f_equal. rewrite <- seq_shift, map_map. apply map_ext. intros i. lia.
Qed.
Example C142_ex : epochs (nth 0 (fst (spa_callbacks [[CUser 3]] (CbList 0))) []) 3 0 = [1; 2; 3] /\
  epochs (nth 0 (fst (spa_callbacks (fst (spa_callbacks [[CUser 3]] (CbList 0))) (CbList 0))) []) 3 0 = [2; 4; 6].
Proof. split; reflexivity. Qed.

(** ** C143: the baselines *)
Section Baselines.
  Context {P D F : Type}.
  Variable base : list P -> list val -> res tensor.
Lemma add_zero : forall t r, r = 0%R -> add_scalar t (0 * r) = t.
Proof.
  intros t r ->. rewrite Rmult_0_l. destruct t as [s|l]; cbn [add_scalar]; f_equal; [lra|]. rewrite <- (map_id l) at 2. apply map_ext. intros; lra.
Qed.
(** The loss of a batch is the base criterion on the samples of the own side and their labels, and nothing else. *)
Theorem C143_source_only : forall pred (dom : option (list D)) (feat : option (list F)) sd idx y, length pred = length sd -> length y = length sd ->
  (forall l, dom = Some l -> length l = length sd) -> (forall l, feat = Some l -> length l = length sd) -> (forall l, idx = Some l -> length l = length sd) ->
  source_only_loss base pred dom feat sd idx y = base (rows_of is_source sd pred) (rows_of is_source sd y).
Proof.
  intros pred dom feat sd idx y Lp Ly Ld Lf Li. unfold source_only_loss. rewrite C63_source_labels_only by assumption. unfold dummy_loss.
  destruct (base _ _) as [t|]; [|reflexivity]. cbn [bind]. change (Ok (add_scalar t (0 * 0)) = Ok t). f_equal. apply add_zero. reflexivity.
Qed.
Theorem C143_target_only : forall pred (dom : option (list D)) (feat : option (list F)) sd idx y, length pred = length sd -> length y = length sd ->
  (forall l, dom = Some l -> length l = length sd) -> (forall l, feat = Some l -> length l = length sd) -> (forall l, idx = Some l -> length l = length sd) ->
  target_only_loss base pred dom feat sd idx y = base (rows_of is_target sd pred) (rows_of is_target sd y).
Proof.
  intros pred dom feat sd idx y Lp Ly Ld Lf Li. unfold target_only_loss, criterion_forward. change (fun s => (0 <=? s)%Z) with is_source. cbv zeta.
  assert (E : map negb (map is_source sd) = map is_target sd) by (rewrite map_map; apply map_ext; intros; symmetry; apply is_target_negb).
  rewrite E. rewrite !np_select_ok by (now rewrite map_length).
  rewrite !(opt_select_ok (map is_source sd)) by (intros; rewrite map_length; auto). rewrite !(opt_select_ok (map is_target sd)) by (intros; rewrite map_length; auto). cbn [bind].
  rewrite <- !rows_of_select. destruct (base _ _) as [t|]; [|reflexivity]. cbn [bind dummy_loss]. f_equal. apply add_zero. reflexivity.
Qed.
(** Sample weights: TargetOnly cannot be trained with them, as the weights of the target samples are dropped. *)
Theorem C143_target_weights_refuted : forall w sd l, length w = length sd -> (forall s, In s sd -> (s < 0)%Z) -> 1 < length l ->
  get_loss (Vec l) (Some w) sd = Err RuntimeError /\ forall r, get_loss (Scalar r) (Some w) sd = Ok None.
Proof.
  intros w sd l L H Hl.
  assert (E : np_select (map (fun s => (0 <? s)%Z) sd) w = Ok []).
  { rewrite np_select_ok by (now rewrite map_length). f_equal. revert w L H. clear. induction sd as [|s sd IH]; intros [|a w] L H; try discriminate; [reflexivity|].
    assert (Q : (0 <? s)%Z = false) by (apply Z.ltb_ge; pose proof (H s (or_introl eq_refl)); lia).
    cbn. rewrite Q. apply IH; [now injection L | intros; apply H; right; assumption]. }
  unfold get_loss. rewrite E. cbn [bind length]. split; [|reflexivity]. unfold broadcast_mul. cbn [length].
  destruct l as [|a [|b l]]; cbn [length] in Hl; try lia. reflexivity.
Qed.
End Baselines.
Example C143_ex : source_only_loss (D := nat) (F := nat) ex_base [5; 6; 7] None None [1; -1; 2]%Z None [VNum 0; VNan; VNum 1] = Ok (Vec [INR 5 + 0 * 0; INR 7 + 0 * 0]%R) /\
  get_loss (Vec [1; 2]%R) (Some [3; 5]%R) [-1; -1]%Z = Err RuntimeError.
Proof. split; reflexivity. Qed.

(** ** C144: default domain classifiers *)

(** A missing size is refused with ValueError by DANN, SPA and CDAN; given sizes are used. *)
Theorem C144_dann : dann_classifier false None = Err ValueError /\ forall n, dann_classifier false (Some n) = Ok (BuiltClassifier n 1).
Proof. split; reflexivity. Qed.
Theorem C144_cdan_refused : forall mf n k, n = None \/ k = None -> cdan_classifier false mf n k = Err ValueError.
Proof. intros mf n k [->| ->]; [reflexivity|]. destruct n; reflexivity. Qed.
(** The classifier CDAN builds has exactly the input size of what the module feeds to it, for every batch. *)
Theorem C144_cdan_size : forall Gen seeded randn mf nf nc c seed os g batch r,
  cdan_classifier false mf (Some nf) (Some nc) = Ok c -> (forall p, In p batch -> length (fst p) = nf /\ length (snd p) = nc) ->
  In r (fst (cdan_forward Gen seeded randn mf seed os g nf nc batch)) -> c = BuiltClassifier (length r) 1.
Proof.
  intros Gen seeded randn mf nf nc c seed os g batch r E H I. injection E as <-. f_equal. symmetry. eapply C109_width; [|exact I]. intros f y If. exact (H (f, y) If).
Qed.
Theorem C144_mdd_refuted : forall n, mdd_classifier false (Some n) None = Err TypeError.
Proof. reflexivity. Qed.
Theorem C144_mdd : forall n k, mdd_classifier false None k = Err ValueError /\ forall c, k = Some c -> mdd_classifier false (Some n) k = Ok (BuiltClassifier n c).
Proof. split; [reflexivity|]. intros c ->. reflexivity. Qed.
Example C144_ex : cdan_classifier false 100 (Some 10) (Some 3) = Ok (BuiltClassifier 30 1) /\ cdan_classifier false 20 (Some 10) (Some 3) = Ok (BuiltClassifier 20 1).
Proof. split; reflexivity. Qed.
