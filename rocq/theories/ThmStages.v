(** Theorem C223: a pipeline built in stages is the pipeline built at once. *)
From Coq Require Import String List ZArith Bool Arith Lia.
From Verif Require Import Np NpFacts PipeModel PipeSpec PipeProofs ThmPipe.
Import ListNotations.
Local Open Scope nat_scope.
Local Open Scope list_scope.

(** Specification: plain estimators with optional names as steps; the selectors a pipeline consists of, in order. *)
Definition plain (es : list (option string * est)) : list step := map (fun ne => SEst (fst ne) (snd ne)) es.
Definition stages (h : heap) (named : list (string * nat)) : list (option sel) := map (fun ni => nth_error h (snd ni)) named.
Definition class_names (es : list (option string * est)) : list string := map (fun ne => e_class (snd ne)) es.
Definition selector_named (nm : string) (cls : selcls) : Prop := (nm = "shared"%string /\ cls = CShared) \/ (nm = "per_domain"%string /\ cls = CPerDomain).
Definition predicts_none (es : list (option string * est)) : Prop := forall ne, In ne es -> e_predicts (snd ne) = false.

(** * Helpers *)
Lemma nth_error_same {A} : forall l1 l2 : list A, (forall k, nth_error l1 k = nth_error l2 k) -> l1 = l2.
Proof.
  induction l1 as [|x l1 IH]; intros [|y l2] H; [reflexivity|specialize (H 0); discriminate|specialize (H 0); discriminate|].
  pose proof (H 0) as H0. cbn in H0. injection H0 as ->. f_equal. apply IH. intros k. exact (H (S k)).
Qed.
Lemma nth_error_prefix {A} : forall n (l : list A) j, j < n -> nth_error (firstn n l) j = nth_error l j.
Proof. induction n as [|n IH]; intros [|x l] [|j] H; try lia; try reflexivity. cbn. apply IH. lia. Qed.
Lemma nth_error_bound {A} (l : list A) j x : nth_error l j = Some x -> j < length l.
Proof. intros H. apply nth_error_Some. congruence. Qed.
Lemma flat_plain es : flat_map flat_step (plain es) = map (fun ne => (fst ne, IEst (snd ne))) es.
Proof. induction es as [|[n e] es IH]; [reflexivity|]. cbn. f_equal. exact IH. Qed.
Lemma nested_plain es : nested_ids (plain es) = [].
Proof. induction es as [|[n e] es IH]; [reflexivity|]. exact IH. Qed.
Lemma no_sel_plain es n i : ~ In (SSel n i) (plain es).
Proof. unfold plain. intros I. apply in_map_iff in I as (x & E & _). discriminate. Qed.
Definition bname (cls : selcls) (e : est) : string := base_name (mkSel cls e false false).
Lemma base_name_cls s cls e : sl_cls s = cls -> sl_base s = e -> base_name s = bname cls e.
Proof. intros <- <-. reflexivity. Qed.
Definition masked_at (mask : bool) (es : list (option string * est)) (k : nat) : bool := mask && forallb (fun ne => negb (e_predicts (snd ne))) (firstn (S k) es).

Lemma plain_built es nm cls mask h h' named : selector_named nm cls -> es <> [] -> make_da_pipeline (plain es) (SelName nm) mask h = Ok (h', named) ->
  length named = length es /\ NoDup (map snd named) /\
  forall k n e, nth_error es k = Some (n, e) -> exists i, nth_error named k = Some (match n with Some u => u | None => auto_name (map (fun ne => bname cls (snd ne)) es) k end, i) /\
    nth_error h' i = Some (mkSel cls e (masked_at mask es k) (S k =? length es)).
Proof.
  intros HN NE M.
  assert (F : flat_map flat_step (plain es) <> []) by (rewrite flat_plain; destruct es; [congruence|discriminate]).
  assert (I1 : forall i, In i (nested_ids (plain es)) -> i < length h) by (rewrite nested_plain; contradiction).
  assert (I2 : NoDup (nested_ids (plain es))) by (rewrite nested_plain; constructor).
  assert (I3 : forall n i s, In (SSel n i) (plain es) -> nth_error h i = Some s -> sl_final s = false) by (intros n i s K; now apply no_sel_plain in K).
  destruct (C21_flat_and_only_last_final (plain es) nm cls mask h HN F I1 I2 I3) as (ha & na & Ma & La & Na & A). rewrite M in Ma. injection Ma as <- <-.
  destruct (C22_masking_stops_at_label_predictor_partial (plain es) nm cls mask h HN F I1 I2 I3) as (ha & na & Ma & B). rewrite M in Ma. injection Ma as <- <-.
  destruct (C20_step_names (plain es) (SelName nm) mask h h' named M) as (bases & Lb & _ & C).
  rewrite flat_plain in *. rewrite map_length in La. split; [exact La|]. split; [exact Na|].
  assert (EB : bases = map (fun ne => bname cls (snd ne)) es).
  { apply nth_error_same. intros k. rewrite nth_error_map. destruct (nth_error es k) as [[n e]|] eqn:E.
    - cbn. assert (K : nth_error (map (fun ne : option string * est => (fst ne, IEst (snd ne))) es) k = Some (n, IEst e)) by (rewrite nth_error_map, E; reflexivity).
      destruct (C k n (IEst e) K) as (i & s & Hn & Hs & Hb). destruct (A k n (IEst e) K) as (n' & i' & s' & Hn' & Hs' & _ & _ & Hc).
      rewrite Hn in Hn'. injection Hn' as _ <-. rewrite Hs in Hs'. injection Hs' as <-. rewrite Hb. f_equal. apply base_name_cls; tauto.
    - apply nth_error_None in E. apply nth_error_None. lia. }
  subst bases. intros k n e E.
  assert (K : nth_error (map (fun ne : option string * est => (fst ne, IEst (snd ne))) es) k = Some (n, IEst e)) by (rewrite nth_error_map, E; reflexivity).
  destruct (C k n (IEst e) K) as (i & s & Hn & Hs & Hb). exists i. split; [exact Hn|].
  destruct (A k n (IEst e) K) as (n' & i' & s' & Hn' & Hs' & _ & Hf & Hc). rewrite Hn in Hn'. injection Hn' as _ <-. rewrite Hs in Hs'. injection Hs' as <-.
  destruct (B k n (IEst e) K) as (n2 & i2 & s2 & Hn2 & Hs2 & Hm1 & Hm2). rewrite Hn in Hn2. injection Hn2 as _ <-. rewrite Hs in Hs2. injection Hs2 as <-.
  rewrite Hs. f_equal. destruct s as [c b m f]. cbn in *.
  assert (f = (S k =? length es)) as ->.
  { rewrite La in Hf. destruct (Nat.eqb_spec (S k) (length es)) as [Q|Q]; [now apply Hf|]. destruct f; [exfalso; tauto|reflexivity]. }
  assert (m = masked_at mask es k) as ->.
  { unfold masked_at. destruct (forallb _ (firstn (S k) es)) eqn:P.
    - rewrite andb_true_r. apply Hm1. intros j e' L J. rewrite map_map in J. cbn in J. rewrite nth_error_map in J. destruct (nth_error es j) as [[u e2]|] eqn:J2; [|discriminate]. cbn in J. injection J as ->.
      rewrite forallb_forall in P. specialize (P (u, e')). cbn [snd] in P. apply negb_true_iff, P.
      apply nth_error_In with j. rewrite nth_error_prefix; [exact J2|lia].
    - rewrite andb_false_r. apply not_true_iff_false in P.
      assert (X : exists j u e', j <= k /\ nth_error es j = Some (u, e') /\ e_predicts e' = true).
      { assert (Y : existsb (fun ne : option string * est => e_predicts (snd ne)) (firstn (S k) es) = true).
        { apply not_false_is_true. intros Y. apply P. apply forallb_forall. intros x Ix. apply negb_true_iff. destruct (e_predicts (snd x)) eqn:Q; [|reflexivity].
          assert (existsb (fun ne : option string * est => e_predicts (snd ne)) (firstn (S k) es) = true); [|congruence]. apply existsb_exists. eauto. }
        apply existsb_exists in Y as ([u e'] & Ix & Q). apply In_nth_error in Ix as (j & J). exists j, u, e'.
        assert (j < S k) by (apply nth_error_bound in J; rewrite firstn_length in J; lia). rewrite nth_error_prefix in J by lia. split; [lia|]. split; [exact J|exact Q]. }
      destruct X as (j & u & e' & L & J & Q). apply (Hm2 j u e' L); [|exact Q]. rewrite nth_error_map, J. reflexivity. }
  destruct Hc as (-> & -> & _). reflexivity.
Qed.

(** * The steps *)
Lemma forallb_prefix {A} (f : A -> bool) a b n : forallb f a = true -> length a <= n -> forallb f (firstn n (a ++ b)) = forallb f (firstn (n - length a) b).
Proof. intros H L. rewrite firstn_app, firstn_all2 by exact L. now rewrite forallb_app, H. Qed.
Lemma none_forallb es : predicts_none es -> forallb (fun ne : option string * est => negb (e_predicts (snd ne))) es = true.
Proof. intros H. apply forallb_forall. intros x I. now rewrite (H x I). Qed.
Lemma none_firstn es n : predicts_none es -> forallb (fun ne : option string * est => negb (e_predicts (snd ne))) (firstn n es) = true.
Proof. intros H. apply none_forallb. intros x I. apply H. rewrite <- (firstn_skipn n es). apply in_or_app. now left. Qed.

Lemma staged_built pre inner post nm cls mask h h1 p h2 q : selector_named nm cls -> inner <> [] -> predicts_none (pre ++ inner) ->
  make_da_pipeline (plain inner) (SelName nm) mask h = Ok (h1, p) ->
  make_da_pipeline (plain pre ++ [SPipe None p] ++ plain post) (SelName nm) mask h1 = Ok (h2, q) ->
  length q = length (pre ++ inner ++ post) /\
  forall k n e, nth_error (pre ++ inner ++ post) k = Some (n, e) -> exists i,
    nth_error q k = Some (match n with Some u => u | None =>
        if (length pre <=? k) && (k <? length pre + length inner) then auto_name (map (fun ne => bname cls (snd ne)) inner) (k - length pre)
        else auto_name (map (fun ne => bname cls (snd ne)) (pre ++ inner ++ post)) k end, i) /\
    nth_error h2 i = Some (mkSel cls e (masked_at mask (pre ++ inner ++ post) k) (S k =? length (pre ++ inner ++ post))).
Proof.
  intros HN NE NP M1 M2. destruct (plain_built inner nm cls mask h h1 p HN NE M1) as (Lp & Dp & Pp).
  set (steps := plain pre ++ [SPipe None p] ++ plain post) in *. set (es := pre ++ inner ++ post) in *.
  assert (FL : flat_map flat_step steps = map (fun ne => (fst ne, IEst (snd ne))) pre ++ map (fun ni => (Some (fst ni), ISel (snd ni))) p ++ map (fun ne => (fst ne, IEst (snd ne))) post).
  { unfold steps. rewrite !flat_map_app, !flat_plain. cbn. now rewrite app_nil_r. }
  assert (NI : nested_ids steps = map snd p).
  { unfold steps, nested_ids. rewrite !flat_map_app. fold (nested_ids (plain pre)). fold (nested_ids (plain post)). rewrite !nested_plain. cbn. now rewrite !app_nil_r. }
  assert (Lq : length (flat_map flat_step steps) = length es) by (rewrite FL; unfold es; rewrite !app_length, !map_length; lia).
  assert (PN : p <> []) by (intros ->; destruct inner; [congruence|discriminate]).
  assert (F : flat_map flat_step steps <> []).
  { intros Z0. rewrite Z0 in Lq. unfold es in Lq. rewrite !app_length in Lq. destruct inner; [congruence|cbn in Lq; lia]. }
  assert (I1 : forall i, In i (nested_ids steps) -> i < length h1).
  { rewrite NI. intros i I. apply in_map_iff in I as ([n i'] & <- & I). apply In_nth_error in I as (k & I). cbn.
    assert (K : k < length inner) by (rewrite <- Lp; eapply nth_error_bound; eauto). destruct (nth_error inner k) as [[u e]|] eqn:E; [|apply nth_error_None in E; lia].
    destruct (Pp k u e E) as (j & J1 & J2). rewrite I in J1. injection J1 as _ ->. eapply nth_error_bound; eauto. }
  assert (I2 : NoDup (nested_ids steps)) by (rewrite NI; exact Dp).
  assert (I3 : forall n i s, In (SSel n i) steps -> nth_error h1 i = Some s -> sl_final s = false).
  { intros n i s K. unfold steps in K. rewrite !in_app_iff in K. destruct K as [K|[[K|[]]|K]]; [now apply no_sel_plain in K|discriminate|now apply no_sel_plain in K]. }
  destruct (C21_flat_and_only_last_final steps nm cls mask h1 HN F I1 I2 I3) as (ha & na & Ma & La & Na & A). rewrite M2 in Ma. injection Ma as <- <-.
  destruct (C22_masking_stops_at_label_predictor_partial steps nm cls mask h1 HN F I1 I2 I3) as (ha & na & Ma & B). rewrite M2 in Ma. injection Ma as <- <-.
  destruct (C20_step_names steps (SelName nm) mask h1 h2 q M2) as (bases & Lb & Lc & C). rewrite Lq in La. split; [exact La|].
  (* the item at each place *)
  assert (IT : forall k n e, nth_error es k = Some (n, e) ->
     (k < length pre \/ length pre + length inner <= k) /\ nth_error (flat_map flat_step steps) k = Some (n, IEst e) \/
     (length pre <= k < length pre + length inner) /\ exists j, nth_error (flat_map flat_step steps) k = Some (Some (match n with Some u => u | None => auto_name (map (fun ne => bname cls (snd ne)) inner) (k - length pre) end), ISel j) /\
        nth_error h1 j = Some (mkSel cls e (masked_at mask inner (k - length pre)) (S (k - length pre) =? length inner))).
  { intros k n e E. rewrite FL. unfold es in E. destruct (le_lt_dec (length pre) k) as [L|L].
    - rewrite nth_error_app2 in E by exact L. rewrite nth_error_app2 by (now rewrite map_length). rewrite map_length.
      destruct (le_lt_dec (length inner) (k - length pre)) as [L2|L2].
      + left. split; [lia|]. rewrite nth_error_app2 in E by exact L2. rewrite nth_error_app2 by (rewrite map_length; lia). rewrite map_length, Lp, nth_error_map, E. reflexivity.
      + right. split; [lia|]. rewrite nth_error_app1 in E by exact L2. rewrite nth_error_app1 by (rewrite map_length; lia).
        destruct (Pp _ _ _ E) as (j & J1 & J2). exists j. split; [|exact J2]. rewrite nth_error_map, J1. reflexivity.
    - left. split; [now left|]. rewrite nth_error_app1 in E by exact L. rewrite nth_error_app1 by (now rewrite map_length). rewrite nth_error_map, E. reflexivity. }
  (* what is there *)
  assert (CT : forall k n e, nth_error es k = Some (n, e) -> exists n' i s, nth_error q k = Some (n', i) /\ nth_error h2 i = Some s /\ sl_cls s = cls /\ sl_base s = e /\ (sl_final s = true <-> S k = length es)).
  { intros k n e E. destruct (IT k n e E) as [(_ & K)|(_ & j & K & J)].
    - destruct (A _ _ _ K) as (n' & i & s & X1 & X2 & _ & X4 & X5). exists n', i, s. rewrite La in X4. repeat split; try tauto; apply X5 || (apply X4).
    - destruct (A _ _ _ K) as (n' & i & s & X1 & X2 & _ & X4 & X5). exists n', i, s. rewrite La in X4. destruct X5 as (-> & s0 & Y1 & Y2 & Y3 & _). rewrite J in Y1. injection Y1 as <-.
      repeat split; try tauto; try (now rewrite Y2 || now rewrite Y3); apply X4. }
  assert (EB : bases = map (fun ne => bname cls (snd ne)) es).
  { apply nth_error_same. intros k. rewrite nth_error_map. destruct (nth_error es k) as [[n e]|] eqn:E.
    - cbn. destruct (CT k n e E) as (n' & i & s & X1 & X2 & X3 & X4 & _).
      assert (exists u it, nth_error (flat_map flat_step steps) k = Some (u, it)) as (u & it & K) by (destruct (IT k n e E) as [(_ & K)|(_ & j & K & _)]; eauto).
      destruct (C k u it K) as (i' & s' & Hn & Hs & Hb). rewrite X1 in Hn. injection Hn as _ <-. rewrite X2 in Hs. injection Hs as <-. rewrite Hb. f_equal. now apply base_name_cls.
    - apply nth_error_None in E. apply nth_error_None. lia. }
  subst bases. intros k n e E. destruct (CT k n e E) as (n' & i & s & X1 & X2 & X3 & X4 & X5). exists i.
  assert (NPre : predicts_none pre) by (intros x Ix; apply NP, in_or_app; now left).
  assert (NInn : predicts_none inner) by (intros x Ix; apply NP, in_or_app; now right).
  assert (MM : sl_mask s = masked_at mask es k).
  { destruct (IT k n e E) as [(W & K)|(W & j & K & J)].
    - destruct (B _ _ _ K) as (n2 & i2 & s2 & Hn2 & Hs2 & Hm1 & Hm2). rewrite X1 in Hn2. injection Hn2 as _ <-. rewrite X2 in Hs2. injection Hs2 as <-.
      unfold masked_at. destruct (forallb _ (firstn (S k) es)) eqn:P.
      + rewrite andb_true_r. apply Hm1. intros j e' Lj J. rewrite nth_error_map in J. destruct (nth_error (flat_map flat_step steps) j) as [[u it]|] eqn:J1; [|discriminate]. cbn in J. injection J as ->.
        destruct (nth_error es j) as [[u2 e2]|] eqn:J2; [|apply nth_error_None in J2; apply nth_error_bound in J1; lia].
        destruct (IT j u2 e2 J2) as [(_ & K2)|(_ & j0 & K2 & _)]; rewrite J1 in K2; [|discriminate]. injection K2 as <- <-.
        rewrite forallb_forall in P. specialize (P (u, e')). cbn [snd] in P. apply negb_true_iff, P. apply nth_error_In with j. rewrite nth_error_prefix; [exact J2|lia].
      + rewrite andb_false_r.
        assert (Y : existsb (fun ne : option string * est => e_predicts (snd ne)) (firstn (S k) es) = true).
        { apply not_false_is_true. intros Y. apply not_true_iff_false in P. apply P. apply forallb_forall. intros x Ix. apply negb_true_iff. destruct (e_predicts (snd x)) eqn:Q; [|reflexivity].
          assert (existsb (fun ne : option string * est => e_predicts (snd ne)) (firstn (S k) es) = true); [|congruence]. apply existsb_exists. eauto. }
        apply existsb_exists in Y as ([u e'] & Ix & Q). apply In_nth_error in Ix as (j & J). assert (j < S k) by (apply nth_error_bound in J; rewrite firstn_length in J; lia).
        rewrite nth_error_prefix in J by lia. destruct (IT j u e' J) as [(_ & K2)|(W2 & _)]; [apply (Hm2 j u e'); [lia|exact K2|exact Q]|].
        exfalso. unfold es in J. rewrite nth_error_app2 in J by lia. rewrite nth_error_app1 in J by lia. apply nth_error_In in J. apply NInn in J. cbn in J, Q. congruence.
    - destruct (A _ _ _ K) as (n2 & i2 & s2 & Hn2 & Hs2 & _ & _ & Y). rewrite X1 in Hn2. injection Hn2 as _ <-. rewrite X2 in Hs2. injection Hs2 as <-.
      destruct Y as (-> & s0 & Y1 & _ & _ & Y4). rewrite J in Y1. injection Y1 as <-. rewrite Y4. cbn. unfold masked_at. f_equal. rewrite none_firstn by exact NInn.
      unfold es. rewrite forallb_prefix; [|now apply none_forallb|lia]. rewrite firstn_app. replace (S k - length pre - length inner) with 0 by lia. rewrite firstn_O, app_nil_r. symmetry. now apply none_firstn. }
  split.
  - rewrite X1. do 2 f_equal. destruct (IT k n e E) as [(W & K)|(W & j & K & J)].
    + destruct (C _ _ _ K) as (i' & s' & Hn & _). rewrite X1 in Hn. injection Hn as -> _. destruct n as [u|]; [reflexivity|].
      replace ((length pre <=? k) && (k <? length pre + length inner)) with false; [reflexivity|]. symmetry. apply andb_false_iff. destruct W; [left; now apply Nat.leb_gt|right; now apply Nat.ltb_ge].
    + destruct (C _ _ _ K) as (i' & s' & Hn & _). rewrite X1 in Hn. injection Hn as -> _. destruct n as [u|]; [reflexivity|].
      replace ((length pre <=? k) && (k <? length pre + length inner)) with true; [reflexivity|]. symmetry. apply andb_true_iff. split; [now apply Nat.leb_le|now apply Nat.ltb_lt].
  - rewrite X2. f_equal. destruct s as [c b m f]. cbn [sl_cls sl_base sl_mask sl_final] in X3, X4, X5, MM. subst c b m. f_equal. destruct (Nat.eqb_spec (S k) (length es)) as [Q|Q]; [now apply X5|]. destruct f; [exfalso; tauto|reflexivity].
Qed.
Lemma plain_total es nm cls mask h : selector_named nm cls -> es <> [] -> exists h' named, make_da_pipeline (plain es) (SelName nm) mask h = Ok (h', named).
Proof.
  intros HN NE.
  assert (F : flat_map flat_step (plain es) <> []) by (rewrite flat_plain; destruct es; [congruence|discriminate]).
  destruct (C21_flat_and_only_last_final (plain es) nm cls mask h HN F) as (h' & named & M & _); [rewrite nested_plain; contradiction|rewrite nested_plain; constructor|intros n i s K; now apply no_sel_plain in K|eauto].
Qed.

(** A pipeline of plain estimators, given as a step between further plain estimators, yields the steps of the pipeline built at once: the same kinds of selectors around the same estimators, with the same masking and
    the same final step, when no estimator in front of [post] predicts target labels. *)
Theorem C223_same_steps : forall pre inner post nm cls mask h h1 p h2 q, selector_named nm cls -> inner <> [] -> predicts_none (pre ++ inner) ->
  make_da_pipeline (plain inner) (SelName nm) mask h = Ok (h1, p) ->
  make_da_pipeline (plain pre ++ [SPipe None p] ++ plain post) (SelName nm) mask h1 = Ok (h2, q) ->
  exists h3 r, make_da_pipeline (plain (pre ++ inner ++ post)) (SelName nm) mask h = Ok (h3, r) /\ stages h2 q = stages h3 r.
Proof.
  intros pre inner post nm cls mask h h1 p h2 q HN NE NP M1 M2.
  assert (NT : pre ++ inner ++ post <> []) by (destruct pre; [|discriminate]; destruct inner; [congruence|discriminate]).
  destruct (plain_total (pre ++ inner ++ post) nm cls mask h HN NT) as (h3 & r & M3). exists h3, r. split; [exact M3|].
  destruct (staged_built _ _ _ _ _ _ _ _ _ _ _ HN NE NP M1 M2) as (Lq & Q). destruct (plain_built _ _ _ _ _ _ _ HN NT M3) as (Lr & _ & R).
  apply nth_error_same. intros k. unfold stages. rewrite !nth_error_map. destruct (nth_error (pre ++ inner ++ post) k) as [[n e]|] eqn:E.
  - destruct (Q k n e E) as (i & Q1 & Q2). destruct (R k n e E) as (j & R1 & R2). rewrite Q1, R1. cbn [option_map snd]. now rewrite Q2, R2.
  - apply nth_error_None in E. replace (nth_error q k) with (@None (string * nat)) by (symmetry; apply nth_error_None; lia). replace (nth_error r k) with (@None (string * nat)) by (symmetry; apply nth_error_None; lia). reflexivity.
Qed.

(** The names agree as well when no class occurs both inside and outside the nested pipeline. *)
Lemma bname_inj cls e e' : bname cls e = bname cls e' -> cls = CShared \/ cls = CPerDomain -> e_class e = e_class e'.
Proof. intros H [-> | ->]; cbn in H; [exact H|]. repeat (injection H as H || idtac). exact H. Qed.
Theorem C223_same_names : forall pre inner post nm cls mask h h1 p h2 q h3 r, selector_named nm cls -> inner <> [] -> predicts_none (pre ++ inner) ->
  (forall c, In c (class_names inner) -> ~ In c (class_names (pre ++ post))) ->
  make_da_pipeline (plain inner) (SelName nm) mask h = Ok (h1, p) ->
  make_da_pipeline (plain pre ++ [SPipe None p] ++ plain post) (SelName nm) mask h1 = Ok (h2, q) ->
  make_da_pipeline (plain (pre ++ inner ++ post)) (SelName nm) mask h = Ok (h3, r) -> map fst q = map fst r.
Proof.
  intros pre inner post nm cls mask h h1 p h2 q h3 r HN NE NP DJ M1 M2 M3.
  assert (NT : pre ++ inner ++ post <> []) by (destruct pre; [|discriminate]; destruct inner; [congruence|discriminate]).
  destruct (staged_built _ _ _ _ _ _ _ _ _ _ _ HN NE NP M1 M2) as (Lq & Q). destruct (plain_built _ _ _ _ _ _ _ HN NT M3) as (Lr & _ & R).
  assert (HC : cls = CShared \/ cls = CPerDomain) by (destruct HN as [(_ & H0)|(_ & H0)]; auto).
  apply nth_error_same. intros k. rewrite !nth_error_map. destruct (nth_error (pre ++ inner ++ post) k) as [[n e]|] eqn:E.
  - destruct (Q k n e E) as (i & Q1 & _). destruct (R k n e E) as (j & R1 & _). rewrite Q1, R1. cbn [option_map fst]. f_equal. destruct n as [u|]; [reflexivity|].
    destruct ((length pre <=? k) && (k <? length pre + length inner)) eqn:W; [|reflexivity]. apply andb_true_iff in W as (W1 & W2). apply Nat.leb_le in W1. apply Nat.ltb_lt in W2.
    set (b := fun ne : option string * est => bname cls (snd ne)). unfold auto_name. rewrite !map_app.
    assert (NE1 : nth_error inner (k - length pre) = Some (None, e)) by (rewrite nth_error_app2, nth_error_app1 in E by lia; exact E).
    assert (N1 : nth (k - length pre) (map b inner) EmptyString = bname cls e) by (apply nth_error_nth; rewrite nth_error_map, NE1; reflexivity).
    assert (N2 : nth k (map b pre ++ map b inner ++ map b post) EmptyString = bname cls e).
    { rewrite app_nth2 by (rewrite map_length; lia). rewrite map_length, app_nth1 by (rewrite map_length; lia). exact N1. }
    rewrite N1, N2.
    assert (Z0 : forall es, (forall x, In x es -> In x (pre ++ post)) -> occurrences (bname cls e) (map b es) = 0).
    { intros es S. apply count_occ_not_In. intros I. apply in_map_iff in I as ([u x] & I1 & I2). unfold b in I1. cbn in I1. apply bname_inj in I1; [|exact HC].
      apply (DJ (e_class e)); [unfold class_names; apply in_map_iff; exists (None, e); split; [reflexivity|eapply nth_error_In; eauto]|].
      unfold class_names. apply in_map_iff. exists (u, x). split; [exact I1|now apply S]. }
    assert (O1 : occurrences (bname cls e) (map b pre ++ map b inner ++ map b post) = occurrences (bname cls e) (map b inner)).
    { rewrite !occurrences_app, (Z0 pre), (Z0 post); [lia|intros; apply in_or_app; now right|intros; apply in_or_app; now left]. }
    assert (O2 : occurrences (bname cls e) (firstn (S k) (map b pre ++ map b inner ++ map b post)) = occurrences (bname cls e) (firstn (S (k - length pre)) (map b inner))).
    { rewrite !firstn_app, !map_length, !occurrences_app. rewrite firstn_all2 by (rewrite map_length; lia). rewrite (Z0 pre) by (intros; apply in_or_app; now left).
      replace (S k - length pre) with (S (k - length pre)) by lia. replace (S (k - length pre) - length inner) with 0 by lia. rewrite firstn_O. cbn. lia. }
    rewrite O1, O2. reflexivity.
  - apply nth_error_None in E. replace (nth_error q k) with (@None (string * nat)) by (symmetry; apply nth_error_None; lia). replace (nth_error r k) with (@None (string * nat)) by (symmetry; apply nth_error_None; lia). reflexivity.
Qed.

(** * Where it fails *)
Local Open Scope string_scope.
(** A nested pipeline that ends with a step predicting target labels, followed by any estimator: built at once the estimator sees the predicted labels, built in stages they are hidden from it again. *)
Definition propagation := mkEst "otlabelpropadapter" true 0.
Definition logistic := mkEst "logisticregression" false 1.
Definition scaler (i : nat) := mkEst "standardscaler" false i.
Theorem C223_predicted_labels_refuted : exists h1 p h2 q h3 r,
  make_da_pipeline (plain [(None, propagation)]) (SelName "shared") true [] = Ok (h1, p) /\
  make_da_pipeline [SPipe None p; SEst None logistic] (SelName "shared") true h1 = Ok (h2, q) /\
  make_da_pipeline (plain [(None, propagation); (None, logistic)]) (SelName "shared") true [] = Ok (h3, r) /\
  stages h2 q = [Some (mkSel CShared propagation false false); Some (mkSel CShared logistic true true)] /\
  stages h3 r = [Some (mkSel CShared propagation false false); Some (mkSel CShared logistic false true)].
Proof. do 6 eexists. split; [reflexivity|]. split; [reflexivity|]. split; [reflexivity|]. split; reflexivity. Qed.
(** The same with the label-predicting step in front of the nested pipeline. *)
Theorem C223_nested_masking_refuted : exists h1 p h2 q,
  make_da_pipeline (plain [(None, logistic)]) (SelName "shared") true [] = Ok (h1, p) /\
  make_da_pipeline [SEst None propagation; SPipe None p] (SelName "shared") true h1 = Ok (h2, q) /\
  stages h2 q = [Some (mkSel CShared propagation false false); Some (mkSel CShared logistic true true)].
Proof. do 4 eexists. split; [reflexivity|]. split; reflexivity. Qed.
(** Two scalers: built at once they are numbered 1 and 2, in stages only the second gets a number. *)
Theorem C223_names_refuted : exists h1 p h2 q h3 r,
  make_da_pipeline (plain [(None, scaler 0)]) (SelName "shared") true [] = Ok (h1, p) /\
  make_da_pipeline [SPipe None p; SEst None (scaler 1)] (SelName "shared") true h1 = Ok (h2, q) /\
  make_da_pipeline (plain [(None, scaler 0); (None, scaler 1)]) (SelName "shared") true [] = Ok (h3, r) /\
  map fst q = ["standardscaler"; "standardscaler-2"] /\ map fst r = ["standardscaler-1"; "standardscaler-2"].
Proof. do 6 eexists. split; [reflexivity|]. split; [reflexivity|]. split; [reflexivity|]. split; reflexivity. Qed.
Example C223_ex : exists h1 p h2 q, predicts_none [(None, scaler 0); (None, mkEst "pca" false 2)] /\
  make_da_pipeline (plain [(None, scaler 0); (None, mkEst "pca" false 2)]) (SelName "shared") true [] = Ok (h1, p) /\
  make_da_pipeline (plain [] ++ [SPipe None p] ++ plain [(None, logistic)]) (SelName "shared") true h1 = Ok (h2, q) /\
  map fst q = ["standardscaler"; "pca"; "logisticregression"] /\ map (option_map sl_final) (stages h2 q) = [Some false; Some false; Some true].
Proof.
  do 4 eexists. split; [intros ne [<-|[<-|[]]]; reflexivity|]. split; [reflexivity|]. split; [reflexivity|]. split; reflexivity.
Qed.
