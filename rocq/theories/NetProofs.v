(** Proofs about NetModel: invariants of the memory. *)
From Coq Require Import String List ZArith QArith Bool Arith Lia Reals Lra.
From Verif Require Import Np Labels RVec LossModel DeepModel NetModel NetSpec.
Import ListNotations.
Local Open Scope nat_scope.
Local Open Scope list_scope.

Lemma replace_length : forall {A} (l : list A) i x, length (replace l i x) = length l.
Proof. induction l as [|y l IH]; intros [|i] x; simpl; auto. Qed.

Lemma nth_error_replace_eq : forall {A} (l : list A) i x, i < length l -> nth_error (replace l i x) i = Some x.
Proof. induction l as [|y l IH]; intros [|i] x H; simpl in *; try lia; auto. apply IH. lia. Qed.

Lemma nth_error_replace_neq : forall {A} (l : list A) i j x, i <> j -> nth_error (replace l i x) j = nth_error l j.
Proof. induction l as [|y l IH]; intros [|i] [|j] x H; simpl; auto; try congruence. Qed.

Lemma nth_replace_eq : forall {A} (l : list A) i x d, i < length l -> nth i (replace l i x) d = x.
Proof. induction l as [|y l IH]; intros [|i] x d H; simpl in *; try lia; auto. apply IH. lia. Qed.

Lemma nth_replace_neq : forall {A} (l : list A) i j x d, i <> j -> nth j (replace l i x) d = nth j l d.
Proof. induction l as [|y l IH]; intros [|i] [|j] x d H; simpl; auto; try congruence. Qed.

Definition hook_dec : forall p q : string * nat, {p = q} + {p <> q}.
Proof. decide equality; [apply Nat.eq_dec | apply String.string_dec]. Defined.

Section Dict.
  Variable F : Type.
  Notation dict_set := (dict_set F).
  Notation dict_get := (dict_get F).
  Lemma get_set_eq : forall d k v, dict_get (dict_set d k v) k = Some v.
  Proof. intros d k v. unfold NetModel.dict_get, NetModel.dict_set. cbn [find fst]. rewrite String.eqb_refl. reflexivity. Qed.
  Lemma get_set_neq : forall d k k' v, k <> k' -> dict_get (dict_set d k v) k' = dict_get d k'.
  Proof.
    intros d k k' v H. unfold NetModel.dict_get, NetModel.dict_set. cbn [find fst].
    destruct (String.eqb_spec k k'); [congruence|].
    induction d as [|p d IH]; [reflexivity|].
    cbn [filter find]. destruct (String.eqb_spec (fst p) k) as [e|e]; cbn [negb].
    - destruct (String.eqb_spec (fst p) k'); [congruence|]. exact IH.
    - cbn [find]. destruct (String.eqb_spec (fst p) k'); [reflexivity|]. exact IH.
  Qed.
End Dict.

Section Memory.
  Variables W X T F D : Type.
  Variable flatten : T -> res F.
  Notation run_hook := (run_hook T F flatten).
  Notation run_layer := (run_layer T F flatten).
  Notation heap := (heap W X T F D).
  Notation history := (history W X T F D flatten).
  Notation nth_dict a ds := (@nth (dict F) a ds []).

  (** *** Running hooks *)
  Lemma hooks_stuck : forall grad out ks (ds : list (dict F)) e, fold_left (run_hook grad out) ks (ds, Some e) = (ds, Some e).
  Proof. induction ks; intros; [reflexivity|]. cbn [fold_left]. unfold NetModel.run_hook at 2. cbn [snd]. apply IHks. Qed.
  Lemma layers_stuck : forall grad hooks tr (ds : list (dict F)) e, fold_left (run_layer grad hooks) tr (ds, Some e) = (ds, Some e).
  Proof. induction tr as [|p tr IH]; intros; [reflexivity|]. cbn [fold_left]. unfold NetModel.run_layer at 2. rewrite hooks_stuck. apply IH. Qed.

  Lemma hooks_length : forall grad out ks ds, length (fst (fold_left (run_hook grad out) ks ds)) = length (fst ds).
  Proof.
    induction ks as [|k ks IH]; intros ds; [reflexivity|]. cbn [fold_left]. rewrite IH. unfold NetModel.run_hook.
    destruct (snd ds); [reflexivity|]. destruct (flatten out); cbn [fst]; [apply replace_length|reflexivity].
  Qed.
  Lemma layers_length : forall grad hooks tr ds, length (fst (fold_left (run_layer grad hooks) tr ds)) = length (fst ds).
  Proof. induction tr as [|p tr IH]; intros ds; [reflexivity|]. cbn [fold_left]. rewrite IH. apply hooks_length. Qed.

  (** Hooks only write under their own key in their own dictionary. *)
  Lemma hook_untouched : forall grad out k ds a key, (key <> fst k \/ a <> snd k) ->
    dict_get F (nth_dict a (fst (run_hook grad out ds k))) key = dict_get F (nth_dict a (fst ds)) key.
  Proof.
    intros grad out k ds a key H. unfold NetModel.run_hook. destruct (snd ds); [reflexivity|].
    destruct (flatten out); cbn [fst]; [|reflexivity].
    destruct (Nat.eq_dec (snd k) a) as [E|E].
    - subst a. destruct H as [H|H]; [|congruence].
      destruct (Nat.lt_ge_cases (snd k) (length (fst ds))) as [L|L].
      + rewrite nth_replace_eq by exact L. apply get_set_neq. congruence.
      + rewrite !nth_overflow; rewrite ?replace_length; auto.
    - rewrite nth_replace_neq by exact E. reflexivity.
  Qed.
  Lemma hooks_untouched : forall grad out ks ds a key, ~ In (key, a) ks ->
    dict_get F (nth_dict a (fst (fold_left (run_hook grad out) ks ds))) key = dict_get F (nth_dict a (fst ds)) key.
  Proof.
    induction ks as [|k ks IH]; intros ds a key H; [reflexivity|]. cbn [fold_left].
    rewrite IH by (intros I; apply H; right; exact I). apply hook_untouched.
    destruct k as [n b]. cbn [fst snd]. destruct (String.string_dec key n) as [->|]; [|left; assumption].
    right. intros ->. apply H. left. reflexivity.
  Qed.
  Lemma layers_untouched : forall grad hooks tr ds a key, (~ In (key, a) hooks \/ ~ In key (map fst tr)) ->
    dict_get F (nth_dict a (fst (fold_left (run_layer grad hooks) tr ds))) key = dict_get F (nth_dict a (fst ds)) key.
  Proof.
    induction tr as [|p tr IH]; intros ds a key H; [reflexivity|]. cbn [fold_left].
    rewrite IH; [|destruct H as [H|H]; [left; exact H | right; intros I; apply H; right; exact I]].
    unfold NetModel.run_layer. apply hooks_untouched. intros I. apply filter_In in I. destruct I as [I E]. cbn [fst] in E.
    apply String.eqb_eq in E. destruct H as [H|H]; [exact (H I)|]. apply H. left. auto.
  Qed.

  (** The hooks of one layer. *)
  Lemma hooks_written : forall grad out f l a ks (ds : list (dict F) * option exn), flatten out = Ok f -> snd ds = None -> a < length (fst ds) ->
    (forall k, In k ks -> fst k = l) -> In (l, a) ks ->
    snd (fold_left (run_hook grad out) ks ds) = None /\
    dict_get F (nth_dict a (fst (fold_left (run_hook grad out) ks ds))) l = Some (f, grad).
  Proof.
    intros grad out f l a ks. 
    assert (K : forall ks (ds : list (dict F) * option exn), flatten out = Ok f -> snd ds = None -> a < length (fst ds) -> (forall k, In k ks -> fst k = l) ->
              dict_get F (nth_dict a (fst ds)) l = Some (f, grad) ->
              snd (fold_left (run_hook grad out) ks ds) = None /\
              dict_get F (nth_dict a (fst (fold_left (run_hook grad out) ks ds))) l = Some (f, grad)).
    { induction ks0 as [|k ks0 IH]; intros ds Hf Hn Ha Hk Hg; [split; assumption|]. cbn [fold_left].
      assert (E : run_hook grad out ds k = (replace (fst ds) (snd k) (dict_set F (nth_dict (snd k) (fst ds)) (fst k) (f, grad)), None)).
      { unfold NetModel.run_hook. rewrite Hn, Hf. reflexivity. }
      rewrite E. apply IH; auto.
      - cbn [fst]. rewrite replace_length. exact Ha.
      - intros k' I. apply Hk. right. exact I.
      - cbn [fst]. destruct (Nat.eq_dec (snd k) a) as [->|N].
        + rewrite nth_replace_eq by exact Ha. rewrite (Hk k) by (left; reflexivity). apply get_set_eq.
        + rewrite nth_replace_neq by exact N. exact Hg. }
    induction ks as [|k ks IH]; intros ds Hf Hn Ha Hk I; [destruct I|]. cbn [fold_left].
    assert (E : run_hook grad out ds k = (replace (fst ds) (snd k) (dict_set F (nth_dict (snd k) (fst ds)) (fst k) (f, grad)), None)).
    { unfold NetModel.run_hook. rewrite Hn, Hf. reflexivity. }
    destruct I as [->|I].
    - apply K; auto.
      + rewrite E. reflexivity.
      + rewrite E. cbn [fst]. rewrite replace_length. exact Ha.
      + intros k' I. apply Hk. right. exact I.
      + rewrite E. cbn [fst snd]. rewrite nth_replace_eq by exact Ha. apply get_set_eq.
    - apply IH; auto.
      + rewrite E. reflexivity.
      + rewrite E. cbn [fst]. rewrite replace_length. exact Ha.
      + intros k' I'. apply Hk. right. exact I'.
  Qed.

  (** After the hooks of all the layers, an entry with a hook holds the last output of its layer. *)
  Lemma layers_written : forall grad hooks tr l a out ds,
    In (l, a) hooks -> a < length ds -> last_output l tr out ->
    snd (fold_left (run_layer grad hooks) tr (ds, None)) = None ->
    exists f, flatten out = Ok f /\
              dict_get F (nth_dict a (fst (fold_left (run_layer grad hooks) tr (ds, None)))) l = Some (f, grad).
  Proof.
    intros grad hooks tr l a out ds Hh Ha (pre & post & -> & Hp) Hn. rewrite fold_left_app in *. cbn [fold_left] in *.
    pose proof (layers_length grad hooks pre (ds, None)) as L. cbn [fst] in L.
    destruct (fold_left (run_layer grad hooks) pre (ds, None)) as [d1 e1] eqn:E1. cbn [fst] in L.
    set (ks := filter (fun k => String.eqb (fst k) l) hooks).
    assert (Hin : In (l, a) ks) by (apply filter_In; split; [exact Hh | apply String.eqb_refl]).
    assert (Hall : forall k, In k ks -> fst k = l) by (intros k I; apply filter_In in I; destruct I as [_ I]; apply String.eqb_eq in I; exact I).
    assert (R : run_layer grad hooks (d1, e1) (l, out) = fold_left (run_hook grad out) ks (d1, e1)) by reflexivity.
    rewrite R in *. destruct e1 as [e1|].
    { rewrite hooks_stuck, layers_stuck in Hn. discriminate. }
    destruct (flatten out) as [f|e] eqn:Ef.
    - exists f. split; [reflexivity|].
      destruct (hooks_written grad out f l a ks (d1, None) Ef eq_refl ltac:(cbn [fst]; lia) Hall Hin) as [A B].
      rewrite layers_untouched by (right; exact Hp). exact B.
    - exfalso. destruct ks as [|k ks']; [destruct Hin|]. cbn [fold_left] in Hn.
      assert (E : run_hook grad out (d1, None) k = (d1, Some e)) by (unfold NetModel.run_hook; cbn [snd fst]; rewrite Ef; reflexivity).
      rewrite E, hooks_stuck, layers_stuck in Hn. discriminate.
  Qed.

  (** No exception when every output can be flattened. *)
  Lemma hooks_fine : forall grad out f ks (ds : list (dict F) * option exn), flatten out = Ok f -> snd ds = None -> snd (fold_left (run_hook grad out) ks ds) = None.
  Proof.
    induction ks as [|k ks IH]; intros ds Hf Hn; [exact Hn|]. cbn [fold_left]. apply IH; [exact Hf|].
    unfold NetModel.run_hook. rewrite Hn, Hf. reflexivity.
  Qed.
  Lemma layers_fine : forall grad hooks tr ds, (forall n out, In (n, out) tr -> exists f, flatten out = Ok f) -> snd ds = None ->
    snd (fold_left (run_layer grad hooks) tr ds) = None.
  Proof.
    induction tr as [|[n out] tr IH]; intros ds Hf Hn; [exact Hn|]. cbn [fold_left]. apply IH; [intros; eapply Hf; right; eassumption|].
    destruct (Hf n out) as [f Ef]; [left; reflexivity|]. unfold NetModel.run_layer. cbn [snd]. eapply hooks_fine; eassumption.
  Qed.

  (** *** The invariant *)
  Notation base_obj := (base_obj W X T).
  Notation modl := (modl T F D).
  Definition mod_ok (h : heap) (o : modl) : Prop :=
    exists ob, nth_error (h_bases _ _ _ _ _ h) (m_base _ _ _ o) = Some ob /\ m_dict _ _ _ o < length (h_dicts _ _ _ _ _ h) /\
      (forall l, m_layer _ _ _ o = Some l -> In l (c_layers _ _ _ (b_code _ _ _ ob)) -> In (l, m_dict _ _ _ o) (b_hooks _ _ _ ob)) /\
      (forall k v, dict_get F (nth_dict (m_dict _ _ _ o) (h_dicts _ _ _ _ _ h)) k = Some v -> In (k, m_dict _ _ _ o) (b_hooks _ _ _ ob)).
  Definition hook_ok (h : heap) (b : nat) (ob : base_obj) (k : string * nat) : Prop :=
    snd k < length (h_dicts _ _ _ _ _ h) /\ In (fst k) (c_layers _ _ _ (b_code _ _ _ ob)) /\
    forall o, In o (h_mods _ _ _ _ _ h) -> m_dict _ _ _ o = snd k -> m_base _ _ _ o = b /\ m_layer _ _ _ o = Some (fst k).
  Definition inv (h : heap) : Prop :=
    (forall o, In o (h_mods _ _ _ _ _ h) -> mod_ok h o) /\
    (forall b ob, nth_error (h_bases _ _ _ _ _ h) b = Some ob -> forall k, In k (b_hooks _ _ _ ob) -> hook_ok h b ob k).

  Lemma inv_empty : inv (empty_heap W X T F D).
  Proof. split; [intros o []|]. intros [|b] ob E; discriminate. Qed.

  Lemma inv_new_base : forall h c w, inv h ->
    inv (mkHeap _ _ _ _ _ (h_bases _ _ _ _ _ h ++ [mkBase _ _ _ c w []]) (h_dicts _ _ _ _ _ h) (h_mods _ _ _ _ _ h)).
  Proof.
    intros h c w [A B]. split.
    - intros o I. destruct (A o I) as (ob & E & L & H1 & H2). exists ob. cbn [h_bases h_dicts]. split; [|split; [exact L | split; assumption]].
      rewrite nth_error_app1; [exact E|]. apply nth_error_Some. congruence.
    - cbn [h_bases]. intros b ob E k I.
      destruct (Nat.lt_ge_cases b (length (h_bases _ _ _ _ _ h))) as [L|L].
      + rewrite nth_error_app1 in E by exact L. exact (B b ob E k I).
      + rewrite nth_error_app2 in E by exact L. destruct (b - length (h_bases _ _ _ _ _ h)) as [|[|]]; try discriminate.
        injection E as <-. destruct I.
  Qed.

  Lemma in_new_hooks : forall l (a : nat) ls (k : string * nat), In k (map (fun n => (n, a)) (filter (String.eqb l) ls)) <-> k = (l, a) /\ In l ls.
  Proof.
    intros l a ls k. rewrite in_map_iff. split.
    - intros (n & <- & I). apply filter_In in I. destruct I as [I E]. apply String.eqb_eq in E. subst n. split; [reflexivity | exact I].
    - intros [-> I]. exists l. split; [reflexivity|]. apply filter_In. split; [exact I | apply String.eqb_refl].
  Qed.

  (** Registering hooks for a module of the heap. [inv0]: the invariant without the hooks of that module. *)
  Lemma register_dicts : forall (h : heap) b a l, h_dicts _ _ _ _ _ (register W X T F D h b a l) = h_dicts _ _ _ _ _ h.
  Proof. intros h b a l. unfold register. destruct (nth_error _ b); [|reflexivity]. destruct l; reflexivity. Qed.
  Lemma register_mods : forall (h : heap) b a l, h_mods _ _ _ _ _ (register W X T F D h b a l) = h_mods _ _ _ _ _ h.
  Proof. intros h b a l. unfold register. destruct (nth_error _ b); [|reflexivity]. destruct l; reflexivity. Qed.
  Lemma register_blength : forall (h : heap) b a l, length (h_bases _ _ _ _ _ (register W X T F D h b a l)) = length (h_bases _ _ _ _ _ h).
  Proof. intros h b a l. unfold register. destruct (nth_error _ b); [|reflexivity]. destruct l; [|reflexivity]. cbn [h_bases]. apply replace_length. Qed.
  Lemma register_bases : forall (h : heap) b a l b',
    nth_error (h_bases _ _ _ _ _ (register W X T F D h b a l)) b' =
    match nth_error (h_bases _ _ _ _ _ h) b' with
    | None => None
    | Some o => Some (if b' =? b then mkBase _ _ _ (b_code _ _ _ o) (b_w _ _ _ o)
                        (b_hooks _ _ _ o ++ match l with None => [] | Some l => map (fun n => (n, a)) (filter (String.eqb l) (c_layers _ _ _ (b_code _ _ _ o))) end)
                      else o)
    end.
  Proof.
    intros h b a l b'. unfold register. destruct (nth_error (h_bases _ _ _ _ _ h) b) as [o|] eqn:E.
    - destruct l as [l|]; cbn [h_bases].
      + destruct (Nat.eqb_spec b' b) as [->|N].
        * rewrite nth_error_replace_eq, E; [reflexivity|]. apply nth_error_Some. congruence.
        * rewrite nth_error_replace_neq by congruence. destruct (nth_error _ b'); reflexivity.
      + destruct (nth_error _ b') as [o'|] eqn:E'; [|reflexivity]. destruct (b' =? b); [|reflexivity]. rewrite app_nil_r. destruct o'; reflexivity.
    - destruct (nth_error _ b') as [o'|] eqn:E'; [|reflexivity]. destruct (Nat.eqb_spec b' b); [congruence | reflexivity].
  Qed.

  Lemma inv_register : forall (h : heap) o,
    In o (h_mods _ _ _ _ _ h) ->
    (exists ob, nth_error (h_bases _ _ _ _ _ h) (m_base _ _ _ o) = Some ob) ->
    m_dict _ _ _ o < length (h_dicts _ _ _ _ _ h) ->
    (forall o', In o' (h_mods _ _ _ _ _ h) -> m_dict _ _ _ o' = m_dict _ _ _ o -> o' = o) ->
    (forall o', In o' (h_mods _ _ _ _ _ h) -> o' <> o -> mod_ok h o') ->
    (nth_dict (m_dict _ _ _ o) (h_dicts _ _ _ _ _ h) = [] \/ mod_ok h o) ->
    (forall b ob, nth_error (h_bases _ _ _ _ _ h) b = Some ob -> forall k, In k (b_hooks _ _ _ ob) -> hook_ok h b ob k) ->
    inv (register W X T F D h (m_base _ _ _ o) (m_dict _ _ _ o) (m_layer _ _ _ o)).
  Proof.
    intros h o Io (ob & Eb) La U Hm Ho Hh. split.
    - rewrite register_mods. intros o' I'. unfold mod_ok. rewrite register_dicts.
      assert (K : mod_ok h o' \/ (o' = o /\ nth_dict (m_dict _ _ _ o) (h_dicts _ _ _ _ _ h) = [])).
      { destruct Ho as [Ho|Ho].
        - destruct (Nat.eq_dec (m_dict _ _ _ o') (m_dict _ _ _ o)) as [e|e]; [right; split; [apply U; assumption | exact Ho]|].
          left. apply Hm; [exact I'|]. congruence.
        - left. destruct (Nat.eq_dec (m_dict _ _ _ o') (m_dict _ _ _ o)) as [e|e].
          + rewrite (U o' I' e). exact Ho.
          + apply Hm; [exact I'|]. congruence. }
      destruct K as [(ob' & Eb' & L & H1 & H2)|[-> Hd]].
      + exists (if m_base _ _ _ o' =? m_base _ _ _ o
                then mkBase _ _ _ (b_code _ _ _ ob') (b_w _ _ _ ob')
                       (b_hooks _ _ _ ob' ++ match m_layer _ _ _ o with None => [] | Some l => map (fun n => (n, m_dict _ _ _ o)) (filter (String.eqb l) (c_layers _ _ _ (b_code _ _ _ ob'))) end)
                else ob').
        rewrite register_bases, Eb'. split; [reflexivity|]. split; [exact L|].
        destruct (m_base _ _ _ o' =? m_base _ _ _ o); [|split; assumption]. cbn [b_code b_hooks]. split.
        * intros l E I. apply in_or_app. left. apply H1; assumption.
        * intros k v G. apply in_or_app. left. eapply H2; eassumption.
      + eexists. rewrite register_bases, Eb, Nat.eqb_refl. split; [reflexivity|]. split; [exact La|]. cbn [b_code b_hooks]. split.
        * intros l E I. rewrite E. apply in_or_app. right. apply in_new_hooks. split; [reflexivity | exact I].
        * rewrite Hd. intros k v G. discriminate G.
    - intros b ob' E k I. rewrite register_bases in E. unfold hook_ok. rewrite register_dicts, register_mods.
      destruct (nth_error (h_bases _ _ _ _ _ h) b) as [ob1|] eqn:E1; [|discriminate]. injection E as <-.
      destruct (Nat.eqb_spec b (m_base _ _ _ o)) as [->|N].
      + cbn [b_hooks b_code] in *. apply in_app_or in I. destruct I as [I|I].
        * exact (Hh _ _ E1 k I).
        * destruct (m_layer _ _ _ o) as [l|] eqn:El; [|destruct I]. apply in_new_hooks in I. destruct I as [-> I]. cbn [fst snd].
          split; [exact La|]. split; [exact I|]. intros o' I' E'. rewrite (U o' I' E'). split; [reflexivity | exact El].
      + exact (Hh _ _ E1 k I).
  Qed.

  Lemma inv_new_module : forall h b l dc cdan, inv h -> b < length (h_bases _ _ _ _ _ h) -> inv (new_module W X T F D h b l dc cdan).
  Proof.
    intros h b l dc cdan [A B] Lb. unfold new_module.
    set (a := length (h_dicts _ _ _ _ _ h)). set (o := mkMod _ _ _ b l a dc cdan).
    set (h1 := mkHeap _ _ _ _ _ (h_bases _ _ _ _ _ h) (h_dicts _ _ _ _ _ h ++ [[]]) (h_mods _ _ _ _ _ h ++ [o])).
    change (inv (register W X T F D h1 (m_base _ _ _ o) (m_dict _ _ _ o) (m_layer _ _ _ o))).
    assert (LT : forall o', In o' (h_mods _ _ _ _ _ h) -> m_dict _ _ _ o' < a) by (intros o' I; destruct (A o' I) as (ob & _ & L & _); exact L).
    apply inv_register.
    - cbn [h1 h_mods]. apply in_or_app. right. left. reflexivity.
    - destruct (nth_error (h_bases _ _ _ _ _ h) b) as [ob|] eqn:E; [exists ob; exact E|]. apply nth_error_None in E. lia.
    - cbn [h1 h_dicts m_dict o]. rewrite app_length. cbn [length]. unfold a. lia.
    - cbn [h1 h_mods]. intros o' I E. apply in_app_or in I. destruct I as [I|[<-|[]]]; [|reflexivity].
      specialize (LT o' I). cbn [m_dict o] in E. lia.
    - cbn [h1 h_mods]. intros o' I N. apply in_app_or in I. destruct I as [I|[<-|[]]]; [|congruence].
      destruct (A o' I) as (ob & E & L & H1 & H2). exists ob. cbn [h1 h_bases h_dicts]. split; [exact E|]. split; [rewrite app_length; lia|].
      split; [exact H1|]. intros k v G. rewrite app_nth1 in G by exact L. eapply H2; eassumption.
    - left. cbn [h1 h_dicts m_dict o]. unfold a. rewrite app_nth2 by lia. rewrite Nat.sub_diag. reflexivity.
    - cbn [h1 h_bases]. intros b' ob E k I. destruct (B b' ob E k I) as (L & H1 & H2). split; [|split; [exact H1|]].
      + cbn [h1 h_dicts]. rewrite app_length. lia.
      + cbn [h1 h_mods]. intros o' I' E'. apply in_app_or in I'. destruct I' as [I'|[<-|[]]]; [apply H2; assumption|].
        cbn [m_dict o] in E'. unfold a in E'. lia.
  Qed.

  Lemma inv_deepcopy : forall h b h', inv h -> deepcopy W X T F D h b = Ok h' -> inv h'.
  Proof.
    intros h b h' [A B] E. unfold deepcopy in E. destruct (nth_error (h_bases _ _ _ _ _ h) b) as [o|] eqn:Eb; [|discriminate].
    destruct (existsb _ _); [discriminate|]. injection E as <-. split.
    - cbn [h_mods]. intros o' I. destruct (A o' I) as (ob & E & L & H1 & H2). exists ob. cbn [h_bases h_dicts].
      split; [rewrite nth_error_app1; [exact E | apply nth_error_Some; congruence]|]. split; [rewrite app_length; lia|]. split; [exact H1|].
      intros k v G. rewrite app_nth1 in G by exact L. eapply H2; eassumption.
    - cbn [h_bases]. intros b' ob E k I. destruct (Nat.lt_ge_cases b' (length (h_bases _ _ _ _ _ h))) as [L|L].
      + rewrite nth_error_app1 in E by exact L. destruct (B b' ob E k I) as (L' & H1 & H2). split; [|split; [exact H1 | exact H2]].
        cbn [h_dicts]. rewrite app_length. lia.
      + rewrite nth_error_app2 in E by exact L. destruct (b' - length (h_bases _ _ _ _ _ h)) as [|[|]]; try discriminate.
        cbn [nth_error] in E. injection E as <-. cbn [b_hooks] in I. apply in_map_iff in I. destruct I as (k0 & <- & I).
        destruct (B b o Eb k0 I) as (L' & H1 & H2). split; [|split; [exact H1|]]; cbn [h_dicts snd h_mods].
        * rewrite app_length. lia.
        * intros o' I' E'. destruct (A o' I') as (ob & _ & L'' & _). lia.
  Qed.

  Lemma new_module_mods : forall (h : heap) b l dc cdan,
    h_mods _ _ _ _ _ (new_module W X T F D h b l dc cdan) = h_mods _ _ _ _ _ h ++ [mkMod _ _ _ b l (length (h_dicts _ _ _ _ _ h)) dc cdan].
  Proof. intros. unfold new_module. rewrite register_mods. reflexivity. Qed.
  Lemma new_module_dicts : forall (h : heap) b l dc cdan, h_dicts _ _ _ _ _ (new_module W X T F D h b l dc cdan) = h_dicts _ _ _ _ _ h ++ [[]].
  Proof. intros. unfold new_module. rewrite register_dicts. reflexivity. Qed.

  Lemma inv_clone : forall h m h', inv h -> clone_module W X T F D h m = Ok h' -> inv h'.
  Proof.
    intros h m h' H E. unfold clone_module in E. destruct (nth_error (h_mods _ _ _ _ _ h) m) as [o|] eqn:Em; [|discriminate].
    destruct (deepcopy W X T F D h (m_base _ _ _ o)) as [h1|e] eqn:E1; [|discriminate]. cbn [bind] in E. injection E as <-.
    pose proof (inv_deepcopy _ _ _ H E1) as H1.
    assert (Lb : length (h_bases _ _ _ _ _ h) < length (h_bases _ _ _ _ _ h1)).
    { unfold deepcopy in E1. destruct (nth_error (h_bases _ _ _ _ _ h) (m_base _ _ _ o)); [|discriminate]. destruct (existsb _ _); [discriminate|].
      injection E1 as <-. cbn [h_bases]. rewrite app_length. cbn [length]. lia. }
    set (cd := match m_cdan _ _ _ o with None => None | Some _ => _ end).
    pose proof (inv_new_module h1 _ (m_layer _ _ _ o) (m_dc _ _ _ o) cd H1 Lb) as H2.
    set (h2 := new_module _ _ _ _ _ _ _ _ _ _) in *.
    set (o2 := mkMod _ _ _ (length (h_bases _ _ _ _ _ h)) (m_layer _ _ _ o) (length (h_dicts _ _ _ _ _ h1)) (m_dc _ _ _ o) cd).
    change (inv (register W X T F D h2 (m_base _ _ _ o2) (m_dict _ _ _ o2) (m_layer _ _ _ o2))).
    assert (Em2 : h_mods _ _ _ _ _ h2 = h_mods _ _ _ _ _ h1 ++ [o2]) by apply new_module_mods.
    assert (I2 : In o2 (h_mods _ _ _ _ _ h2)) by (rewrite Em2; apply in_or_app; right; left; reflexivity).
    destruct H2 as [A2 B2]. destruct (A2 o2 I2) as (ob & Eb & L & _).
    apply inv_register; auto.
    - exists ob. exact Eb.
    - rewrite Em2. intros o' I' E'. apply in_app_or in I'. destruct I' as [I'|[<-|[]]]; [|reflexivity].
      destruct (proj1 H1 o' I') as (ob' & _ & L' & _). cbn [o2 m_dict] in E'. lia.
  Qed.

  Lemma inv_call : forall grad kw h b x, inv h -> inv (fst (call_base W X T F D flatten grad kw h b x)).
  Proof.
    intros grad kw h b x [A B]. unfold call_base. destruct (nth_error (h_bases _ _ _ _ _ h) b) as [o|] eqn:Eb; [|split; assumption].
    destruct (kw && negb (c_takes_weight _ _ _ (b_code _ _ _ o))); [split; assumption|].
    destruct (c_run _ _ _ (b_code _ _ _ o) (b_w _ _ _ o) x) as [tr r].
    set (tr' := match r with Ok y => _ | Err _ => _ end).
    pose proof (layers_length grad (b_hooks _ _ _ o) tr' (h_dicts _ _ _ _ _ h, None)) as L.
    pose proof (fun a key => layers_untouched grad (b_hooks _ _ _ o) tr' (h_dicts _ _ _ _ _ h, None) a key) as U.
    destruct (fold_left _ tr' (h_dicts _ _ _ _ _ h, None)) as [ds e]. cbn [fst] in *. split.
    - cbn [h_mods]. intros o' I. destruct (A o' I) as (ob & E & L' & H1 & H2). exists ob. cbn [h_bases h_dicts].
      split; [exact E|]. split; [lia|]. split; [exact H1|]. intros k v G.
      destruct (in_dec hook_dec (k, m_dict _ _ _ o') (b_hooks _ _ _ o)) as [Ih|Nh].
      + destruct (B b o Eb _ Ih) as (_ & _ & H3). destruct (H3 o' I eq_refl) as [E' _]. rewrite E', Eb in E. injection E as <-. exact Ih.
      + rewrite U in G by (left; exact Nh). eapply H2; eassumption.
    - cbn [h_bases]. intros b' ob E k I. destruct (B b' ob E k I) as (L' & H1 & H2). split; [cbn [h_dicts]; lia | split; assumption].
  Qed.

  Lemma fst_lift : forall {A B} (r : heap * res A) (k : heap -> A -> res B), fst (lift W X T F D r k) = fst r.
  Proof. reflexivity. Qed.

  Lemma inv_forward : forall grad h m x w f r, inv h -> inv (fst (forward W X T F D flatten grad h m x w f r)).
  Proof.
    intros grad h m x w f r H. unfold forward. destruct (nth_error (h_mods _ _ _ _ _ h) m) as [o|]; [|exact H].
    destruct (m_cdan _ _ _ o).
    - unfold forward_cdan. destruct w; [exact H|]. rewrite fst_lift. apply inv_call. exact H.
    - unfold forward_plain. destruct f; rewrite fst_lift; apply inv_call; exact H.
  Qed.

  Lemma inv_set_weights : forall h b f, inv h -> inv (set_weights W X T F D h b f).
  Proof.
    intros h b f [A B]. unfold set_weights. destruct (nth_error (h_bases _ _ _ _ _ h) b) as [o|] eqn:Eb; [|split; assumption].
    assert (Lb : b < length (h_bases _ _ _ _ _ h)) by (apply nth_error_Some; congruence). split.
    - cbn [h_mods]. intros o' I. destruct (A o' I) as (ob & E & L & H1 & H2). unfold mod_ok. cbn [h_bases h_dicts].
      destruct (Nat.eq_dec b (m_base _ _ _ o')) as [->|N].
      + rewrite Eb in E. injection E as <-. eexists. rewrite nth_error_replace_eq by exact Lb. split; [reflexivity|]. cbn [b_code b_hooks]. auto.
      + exists ob. rewrite nth_error_replace_neq by exact N. auto.
    - cbn [h_bases]. intros b' ob E k I. destruct (Nat.eq_dec b b') as [<-|N].
      + rewrite nth_error_replace_eq in E by exact Lb. injection E as <-. cbn [b_hooks] in I.
        destruct (B b o Eb k I) as (L & H1 & H2). split; [exact L|]. split; assumption.
      + rewrite nth_error_replace_neq in E by exact N. destruct (B b' ob E k I) as (L & H1 & H2). split; [exact L|]. split; assumption.
  Qed.

  Lemma inv_exec : forall h e, inv h -> inv (exec W X T F D flatten h e).
  Proof.
    intros h e H. destruct e; cbn [exec].
    - apply inv_new_base. exact H.
    - destruct (Nat.ltb_spec b (length (h_bases _ _ _ _ _ h))) as [L|L]; [|exact H]. apply inv_new_module; assumption.
    - destruct (clone_module W X T F D h m) as [h'|] eqn:E; [|exact H]. eapply inv_clone; eassumption.
    - apply inv_forward. exact H.
    - apply inv_set_weights. exact H.
  Qed.
  Lemma inv_history : forall es, inv (history es).
  Proof.
    intros es. unfold NetModel.history.
    assert (K : forall es h, inv h -> inv (fold_left (exec W X T F D flatten) es h)).
    { induction es0 as [|e es0 IH]; intros h H; [exact H|]. cbn [fold_left]. apply IH. apply inv_exec. exact H. }
    apply K. apply inv_empty.
  Qed.

  (** *** A call of a base module *)
  Lemma call_features : forall grad kw h o ob x trace y l,
    inv h -> In o (h_mods _ _ _ _ _ h) -> nth_error (h_bases _ _ _ _ _ h) (m_base _ _ _ o) = Some ob ->
    c_run _ _ _ (b_code _ _ _ ob) (b_w _ _ _ ob) x = (trace, Ok y) ->
    m_layer _ _ _ o = Some l -> In l (c_layers _ _ _ (b_code _ _ _ ob)) ->
    forall out, last_output l (trace ++ [(EmptyString, y)]) out ->
    forall h' y', call_base W X T F D flatten grad kw h (m_base _ _ _ o) x = (h', Ok y') ->
    y' = y /\ exists f, flatten out = Ok f /\ features_of W X T F D h' o = Ok f.
  Proof.
    intros grad kw h o ob x trace y l [A B] Io Eb Er El Il out Ho h' y' E. unfold call_base in E. rewrite Eb in E.
    destruct (kw && negb (c_takes_weight _ _ _ (b_code _ _ _ ob))); [discriminate|]. rewrite Er in E.
    destruct (A o Io) as (ob' & Eb' & L & H1 & H2). rewrite Eb in Eb'. injection Eb' as <-.
    pose proof (layers_written grad (b_hooks _ _ _ ob) _ l (m_dict _ _ _ o) out (h_dicts _ _ _ _ _ h) (H1 l El Il) L Ho) as Wr.
    destruct (fold_left _ (trace ++ [(EmptyString, y)]) (h_dicts _ _ _ _ _ h, None)) as [ds e]. destruct e as [e|]; [discriminate|].
    injection E as <- <-. split; [reflexivity|]. destruct (Wr eq_refl) as (f & Ef & G). exists f. split; [exact Ef|].
    unfold features_of. rewrite El. cbn [h_dicts fst] in *. rewrite G. reflexivity.
  Qed.

  Lemma call_ok : forall grad kw h b ob x trace y,
    nth_error (h_bases _ _ _ _ _ h) b = Some ob -> c_run _ _ _ (b_code _ _ _ ob) (b_w _ _ _ ob) x = (trace, Ok y) ->
    (kw = true -> c_takes_weight _ _ _ (b_code _ _ _ ob) = true) ->
    (forall n out, In (n, out) (trace ++ [(EmptyString, y)]) -> exists f, flatten out = Ok f) ->
    exists h', call_base W X T F D flatten grad kw h b x = (h', Ok y).
  Proof.
    intros grad kw h b ob x trace y Eb Er Hk Hf. unfold call_base. rewrite Eb, Er.
    replace (kw && negb (c_takes_weight _ _ _ (b_code _ _ _ ob))) with false
      by (destruct kw; [rewrite Hk by reflexivity|]; reflexivity).
    pose proof (layers_fine grad (b_hooks _ _ _ ob) (trace ++ [(EmptyString, y)]) (h_dicts _ _ _ _ _ h, None) Hf eq_refl) as N.
    destruct (fold_left _ (trace ++ [(EmptyString, y)]) (h_dicts _ _ _ _ _ h, None)) as [ds e]. cbn [snd] in N. subst e. eexists. reflexivity.
  Qed.

  Lemma call_mods : forall grad kw h b x, h_mods _ _ _ _ _ (fst (call_base W X T F D flatten grad kw h b x)) = h_mods _ _ _ _ _ h /\
    h_bases _ _ _ _ _ (fst (call_base W X T F D flatten grad kw h b x)) = h_bases _ _ _ _ _ h.
  Proof.
    intros. unfold call_base. destruct (nth_error _ b) as [o|]; [|auto]. destruct (_ && _); [auto|]. destruct (c_run _ _ _ _ _ _) as [tr r].
    destruct (fold_left _ _ _). auto.
  Qed.
  Lemma forward_bases : forall grad h m x w f r,
    h_bases _ _ _ _ _ (fst (forward W X T F D flatten grad h m x w f r)) = h_bases _ _ _ _ _ h /\
    h_mods _ _ _ _ _ (fst (forward W X T F D flatten grad h m x w f r)) = h_mods _ _ _ _ _ h.
  Proof.
    intros grad h m x w f r. unfold forward. destruct (nth_error (h_mods _ _ _ _ _ h) m) as [o|]; [|auto].
    destruct (m_cdan _ _ _ o).
    - unfold forward_cdan. destruct w; [auto|]. rewrite fst_lift. split; apply call_mods.
    - unfold forward_plain. destruct f; rewrite fst_lift; split; apply call_mods.
  Qed.
End Memory.
