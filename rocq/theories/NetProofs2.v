(** Proofs about NetModel: nets, copies, gradients. *)
From Coq Require Import String List ZArith QArith Bool Arith Lia Reals Lra.
From Verif Require Import Np Labels RVec LossModel DeepModel NetModel NetSpec NetProofs.
Import ListNotations.
Local Open Scope nat_scope.
Local Open Scope list_scope.

Section Memory.
  Variables W X T F D : Type.
  Variable flatten : T -> res F.
  Notation heap := (heap W X T F D).
  Notation history := (history W X T F D flatten).
  Notation bases := (h_bases W X T F D).
  Notation dicts := (h_dicts W X T F D).
  Notation mods := (h_mods W X T F D).
  Notation base := (m_base T F D).
  Notation layer := (m_layer T F D).
  Notation forward := (forward W X T F D flatten).

  (** *** Only the own base module changes *)
  Lemma new_module_other : forall (h : heap) b l dc cdan b', b' <> b -> nth_error (bases (new_module W X T F D h b l dc cdan)) b' = nth_error (bases h) b'.
  Proof.
    intros h b l dc cdan b' N. unfold new_module. rewrite register_bases. cbn [h_bases].
    destruct (nth_error (bases h) b') as [o|]; [|reflexivity]. destruct (Nat.eqb_spec b' b); [congruence | reflexivity].
  Qed.
  Lemma set_weights_other : forall (h : heap) b f b', b' <> b -> nth_error (bases (set_weights W X T F D h b f)) b' = nth_error (bases h) b'.
  Proof.
    intros h b f b' N. unfold set_weights. destruct (nth_error (bases h) b); [|reflexivity]. cbn [h_bases].
    apply nth_error_replace_neq. congruence.
  Qed.
  Lemma set_weights_dicts : forall (h : heap) b f, dicts (set_weights W X T F D h b f) = dicts h.
  Proof. intros h b f. unfold set_weights. destruct (nth_error (bases h) b); reflexivity. Qed.
  Lemma set_weights_mods : forall (h : heap) b f, mods (set_weights W X T F D h b f) = mods h.
  Proof. intros h b f. unfold set_weights. destruct (nth_error (bases h) b); reflexivity. Qed.
  Lemma set_weights_own : forall (h : heap) b f o, nth_error (bases h) b = Some o ->
    nth_error (bases (set_weights W X T F D h b f)) b = Some (mkBase _ _ _ (b_code _ _ _ o) (f (b_w _ _ _ o)) (b_hooks _ _ _ o)).
  Proof.
    intros h b f o E. unfold set_weights. rewrite E. cbn [h_bases]. apply nth_error_replace_eq. apply nth_error_Some. congruence.
  Qed.

  Variable step : X -> output T F D -> W -> W.
  Notation train_batch := (train_batch W X T F D flatten step).
  Notation net_fit := (net_fit W X T F D flatten step).

  Lemma train_other : forall s m b xw b', b' <> b -> nth_error (bases (fst (train_batch s m b xw))) b' = nth_error (bases (fst s)) b'.
  Proof.
    intros s m b xw b' N. unfold NetModel.train_batch. destruct (snd s); [|reflexivity].
    pose proof (proj1 (forward_bases W X T F D flatten true (fst s) m (fst xw) (snd xw) true false)) as E.
    destruct (forward true (fst s) m (fst xw) (snd xw) true false) as [h' r]. cbn [fst snd] in *.
    destruct r; cbn [fst]; [rewrite set_weights_other by exact N|]; rewrite E; reflexivity.
  Qed.
  Lemma fit_other : forall (h : heap) t bs b', b' <> t_base _ _ _ t -> nth_error (bases (fst (net_fit h t bs))) b' = nth_error (bases h) b'.
  Proof.
    intros h t bs b' N. unfold NetModel.net_fit, net_init. cbn [fst].
    assert (K : forall bs s, nth_error (bases (fst (fold_left (fun s xw => train_batch s (length (mods h)) (t_base _ _ _ t) xw) bs s))) b' = nth_error (bases (fst s)) b').
    { induction bs0 as [|xw bs0 IH]; intros s; [reflexivity|]. cbn [fold_left]. rewrite IH. apply train_other. exact N. }
    rewrite K. cbn [fst]. apply new_module_other. exact N.
  Qed.

  Lemma deepcopy_bases : forall (h : heap) b h', deepcopy W X T F D h b = Ok h' ->
    exists o o', nth_error (bases h) b = Some o /\ bases h' = bases h ++ [o'] /\ b_code _ _ _ o' = b_code _ _ _ o /\ b_w _ _ _ o' = b_w _ _ _ o.
  Proof.
    intros h b h' E. unfold deepcopy in E. destruct (nth_error (bases h) b) as [o|]; [|discriminate].
    destruct (existsb _ _); [discriminate|]. injection E as <-. exists o. eexists. cbn [h_bases]. auto.
  Qed.

  (** *** Tensors with gradients *)
  Definition clean (h : heap) : Prop := forall d, In d (dicts h) -> attached F d = false.
  Lemma in_replace : forall {A} (l : list A) i x y, In y (replace l i x) -> y = x \/ In y l.
  Proof.
    induction l as [|z l IH]; intros [|i] x y I; simpl in *; auto.
    - destruct I; auto.
    - destruct I as [I|I]; auto. destruct (IH _ _ _ I); auto.
  Qed.
  Lemma attached_set : forall (d : dict F) k f, attached F d = false -> attached F (dict_set F d k (f, false)) = false.
  Proof.
    intros d k f H. unfold attached, dict_set in *. cbn [existsb snd]. cbn [orb].
    induction d as [|p d IH]; [reflexivity|]. cbn [existsb filter] in *. apply orb_false_iff in H. destruct H as [H1 H2].
    destruct (negb _); [cbn [existsb]; rewrite H1, IH by exact H2; reflexivity | apply IH; exact H2].
  Qed.
  Lemma clean_nth : forall (ds : list (dict F)) a, (forall d, In d ds -> attached F d = false) -> attached F (nth a ds []) = false.
  Proof.
    intros ds a H. destruct (Nat.lt_ge_cases a (length ds)) as [L|L]; [apply H; apply nth_In; exact L | rewrite nth_overflow by exact L; reflexivity].
  Qed.
  Lemma clean_hooks : forall out ks ds, (forall d, In d (fst ds) -> attached F d = false) ->
    forall d, In d (fst (fold_left (run_hook T F flatten false out) ks ds)) -> attached F d = false.
  Proof.
    induction ks as [|k ks IH]; intros ds H; [exact H|]. cbn [fold_left]. apply IH. unfold run_hook. destruct (snd ds); [exact H|].
    destruct (flatten out) as [f|]; [|exact H]. cbn [fst]. intros d I. apply in_replace in I. destruct I as [->|I]; [|apply H; exact I].
    apply attached_set. apply clean_nth. exact H.
  Qed.
  Lemma clean_layers : forall hooks tr ds, (forall d, In d (fst ds) -> attached F d = false) ->
    forall d, In d (fst (fold_left (run_layer T F flatten false hooks) tr ds)) -> attached F d = false.
  Proof.
    induction tr as [|p tr IH]; intros ds H; [exact H|]. cbn [fold_left]. apply IH. apply clean_hooks. exact H.
  Qed.
  Lemma clean_call : forall kw (h : heap) b x, clean h -> clean (fst (call_base W X T F D flatten false kw h b x)).
  Proof.
    intros kw h b x H. unfold call_base. destruct (nth_error (bases h) b) as [o|]; [|exact H]. destruct (_ && _); [exact H|].
    destruct (c_run _ _ _ _ _ _) as [tr r]. set (tr' := match r with Ok y => _ | Err _ => _ end).
    pose proof (clean_layers (b_hooks _ _ _ o) tr' (dicts h, None) H) as K.
    destruct (fold_left _ tr' (dicts h, None)) as [ds e]. exact K.
  Qed.
  Lemma clean_forward : forall (h : heap) m x w f r, clean h -> clean (fst (forward false h m x w f r)).
  Proof.
    intros h m x w f r H. unfold NetModel.forward. destruct (nth_error (mods h) m) as [o|]; [|exact H].
    destruct (m_cdan _ _ _ o).
    - unfold forward_cdan. destruct w; [exact H|]. rewrite fst_lift. apply clean_call. exact H.
    - unfold forward_plain. destruct f; rewrite fst_lift; apply clean_call; exact H.
  Qed.
  Lemma clean_new_module : forall (h : heap) b l dc cdan, clean h -> clean (new_module W X T F D h b l dc cdan).
  Proof.
    intros h b l dc cdan H d I. rewrite new_module_dicts in I. apply in_app_or in I. destruct I as [I|[<-|[]]]; [apply H; exact I | reflexivity].
  Qed.
  Lemma clean_deepcopy : forall (h : heap) b h', clean h -> deepcopy W X T F D h b = Ok h' -> clean h'.
  Proof.
    intros h b h' H E. unfold deepcopy in E. destruct (nth_error (bases h) b) as [o|]; [|discriminate].
    destruct (existsb _ _); [discriminate|]. injection E as <-. intros d I. cbn [h_dicts] in I. apply in_app_or in I. destruct I; apply H; assumption.
  Qed.
  Lemma clean_exec : forall (h : heap) e, (forall grad m x w f r, e = EForward _ _ _ _ _ grad m x w f r -> grad = false) -> clean h -> clean (exec W X T F D flatten h e).
  Proof.
    intros h e G H. destruct e; cbn [exec].
    - exact H.
    - destruct (b <? _); [apply clean_new_module; exact H | exact H].
    - destruct (clone_module W X T F D h m) as [h'|] eqn:E; [|exact H]. unfold clone_module in E.
      destruct (nth_error (mods h) m) as [o|]; [|discriminate].
      destruct (deepcopy W X T F D h (m_base _ _ _ o)) as [h1|] eqn:E1; [|discriminate]. cbn [bind] in E. injection E as <-.
      intros d I. rewrite register_dicts in I. revert d I. apply clean_new_module. eapply clean_deepcopy; eassumption.
    - rewrite (G grad m x weighted is_fit return_features eq_refl). apply clean_forward. exact H.
    - intros d I. rewrite set_weights_dicts in I. apply H. exact I.
  Qed.
  Lemma clean_deepcopy_ok : forall (h : heap) b, clean h -> b < length (bases h) -> exists h', deepcopy W X T F D h b = Ok h'.
  Proof.
    intros h b H L. unfold deepcopy. destruct (nth_error (bases h) b) as [o|] eqn:E; [|apply nth_error_None in E; lia].
    destruct (existsb _ (b_hooks _ _ _ o)) eqn:X0; [|eexists; reflexivity].
    exfalso. apply existsb_exists in X0. destruct X0 as (k & _ & A). rewrite clean_nth in A by exact H. discriminate.
  Qed.
  Lemma clean_history : forall es, (forall grad m x w f r, In (EForward _ _ _ _ _ grad m x w f r) es -> grad = false) -> clean (history es).
  Proof.
    intros es G. unfold NetModel.history.
    assert (K : forall es h, (forall grad m x w f r, In (EForward _ _ _ _ _ grad m x w f r) es -> grad = false) -> clean h -> clean (fold_left (exec W X T F D flatten) es h)).
    { induction es0 as [|e es0 IH]; intros h G0 H; [exact H|]. cbn [fold_left]. apply IH.
      - intros grad m x w f r I. apply (G0 grad m x w f r). right. exact I.
      - apply clean_exec; [|exact H]. intros grad m x w f r ->. apply (G0 grad m x w f r). left. reflexivity. }
    apply K; [exact G|]. intros d [].
  Qed.

  (** *** After training *)
  Lemma dict_get_attached : forall (d : dict F) k f, dict_get F d k = Some (f, true) -> attached F d = true.
  Proof.
    intros d k f E. unfold dict_get in E. destruct (find _ d) as [p|] eqn:P; [|discriminate]. injection E as E.
    apply find_some in P. destruct P as [I _]. unfold attached. apply existsb_exists. exists p. split; [exact I|]. rewrite E. reflexivity.
  Qed.

  (** A forward pass with gradients leaves a tensor with a gradient function in the dictionary of the module. *)
  Lemma forward_attached : forall (h : heap) m o ob x w trace y l out h' r,
    inv W X T F D h -> nth_error (mods h) m = Some o -> m_cdan _ _ _ o = None ->
    nth_error (bases h) (base o) = Some ob -> c_run _ _ _ (b_code _ _ _ ob) (b_w _ _ _ ob) x = (trace, Ok y) ->
    layer o = Some l -> In l (c_layers _ _ _ (b_code _ _ _ ob)) -> last_output l (trace ++ [(EmptyString, y)]) out ->
    forward true h m x w true false = (h', Ok r) ->
    attached F (nth (m_dict _ _ _ o) (dicts h') []) = true.
  Proof.
    intros h m o ob x w trace y l out h' r I Em Ec Eb Er El Il Ho E.
    unfold NetModel.forward in E. rewrite Em, Ec in E. unfold forward_plain, lift in E.
    destruct (call_base W X T F D flatten true w h (base o) x) as [h1 r1] eqn:C. cbn [fst snd] in E. injection E as <- E.
    destruct r1 as [y1|e]; [|discriminate].
    unfold call_base in C. rewrite Eb in C. destruct (w && _); [discriminate|]. rewrite Er in C.
    destruct I as [A B]. destruct (A o (nth_error_In _ _ Em)) as (ob' & Eb' & L & H1 & H2). rewrite Eb in Eb'. injection Eb' as <-.
    pose proof (layers_written T F flatten true (b_hooks _ _ _ ob) _ l (m_dict _ _ _ o) out (dicts h) (H1 l El Il) L Ho) as Wr.
    destruct (fold_left _ (trace ++ [(EmptyString, y)]) (dicts h, None)) as [ds e]. destruct e as [e|]; [discriminate|].
    injection C as <- _. destruct (Wr eq_refl) as (f & _ & G). cbn [h_dicts fst] in *. exact (dict_get_attached _ _ _ G).
  Qed.
End Memory.

