(** Proofs about the pipeline constructor. *)
From Coq Require DecimalNat.
From Coq Require Import DecimalString String Ascii List Bool Arith Lia Permutation.
From Verif Require Import Np NpFacts SelectProofs2 PipeModel PipeSpec.
Import ListNotations.
Local Open Scope nat_scope.
Local Open Scope list_scope.

Definition dget := @dict_get string nat String.eqb.

Lemma counts_get l n d :
  match dget n (fold_left (fun d n => dict_set String.eqb n (S (match dict_get String.eqb n d with Some k => k | None => 0 end)) d) l d)
  with Some k => k | None => 0 end = match dget n d with Some k => k | None => 0 end + occurrences n l /\
  (dget n (fold_left (fun d n => dict_set String.eqb n (S (match dict_get String.eqb n d with Some k => k | None => 0 end)) d) l d) = None
   <-> dget n d = None /\ occurrences n l = 0).
Proof.
  revert d. induction l as [|x l IH]; intros d; simpl.
  - split; [lia|]. unfold occurrences; simpl; tauto.
  - destruct (IH (dict_set String.eqb x (S match dict_get String.eqb x d with Some k => k | None => 0 end) d)) as [IH1 IH2].
    unfold dget in *. rewrite IH1, IH2. rewrite (dict_get_set String.eqb string_eqb_spec).
    unfold occurrences in *. simpl. destruct (String.eqb n x) eqn:E.
    + apply String.eqb_eq in E. subst. destruct (string_dec x x); [|congruence].
      split; [lia|]. split; [easy|]. intros [_ H]; discriminate.
    + apply String.eqb_neq in E. destruct (string_dec x n); [congruence|]. split; [lia|tauto].
Qed.

Lemma name_counts_get l n : dget n (name_counts l) = if occurrences n l =? 0 then None else Some (occurrences n l).
Proof.
  unfold name_counts. destruct (counts_get l n []) as [H1 H2]. unfold dget in *. cbn [dict_get] in *.
  match goal with |- ?x = _ => destruct x as [k|] eqn:E end.
  - destruct (Nat.eqb_spec (occurrences n l) 0) as [Z|Z]; [|f_equal; lia].
    assert (C : Some k = None) by (apply H2; auto). discriminate.
  - destruct H2 as [H2 _]. destruct (H2 eq_refl) as [_ ->]. reflexivity.
Qed.

Lemma name_counts_NoDup l : NoDup (map fst (name_counts l)).
Proof.
  unfold name_counts. assert (G : forall d, NoDup (map fst d) ->
    NoDup (map fst (fold_left (fun d n => dict_set String.eqb n (S (match dict_get String.eqb n d with Some k => k | None => 0 end)) d) l d))).
  { induction l as [|x l IH]; intros d H; simpl; auto. apply IH. apply dict_set_NoDup; auto. apply string_eqb_spec. }
  apply G. constructor.
Qed.

Lemma dict_get_filter {V} (f : V -> bool) (d : dict string V) n : NoDup (map fst d) ->
  dict_get String.eqb n (filter (fun kv => f (snd kv)) d) =
  match dict_get String.eqb n d with Some v => if f v then Some v else None | None => None end.
Proof.
  induction d as [|[k v] d IH]; simpl; auto. intros ND. inversion ND; subst.
  destruct (f v) eqn:Ef; simpl.
  - destruct (String.eqb n k); [now rewrite Ef|]. now apply IH.
  - destruct (String.eqb n k) eqn:E; [|now apply IH]. rewrite Ef. rewrite IH by auto.
    apply String.eqb_eq in E. subst. destruct (dict_get String.eqb k d) eqn:E2; auto.
    exfalso. apply H1. apply in_map_iff. exists (k, v0). split; auto. eapply dict_get_In; eauto. apply string_eqb_spec.
Qed.

(** The reverse loop. *)
Definition numbered (all pre : list string) : list string :=
  map (fun i => auto_name all i) (seq 0 (length pre)).

Lemma occurrences_app n a b : occurrences n (a ++ b) = occurrences n a + occurrences n b.
Proof. apply count_occ_app. Qed.

Lemma number_rev_ok all pre post cnt : all = pre ++ post ->
  (forall n, dget n cnt = if occurrences n all <=? 1 then None else Some (occurrences n pre)) ->
  number_rev (rev pre) cnt = rev (numbered all pre).
Proof.
  revert post cnt. induction pre as [|x pre IH] using rev_ind; intros post cnt Hall Hc; [reflexivity|].
  rewrite rev_app_distr. cbn [rev app]. unfold numbered. rewrite app_length. cbn [length].
  rewrite Nat.add_1_r, seq_S, map_app, rev_app_distr. cbn [map rev app plus].
  cbn [number_rev]. specialize (Hc x) as Hx. unfold dget in Hx. rewrite Hx.
  assert (Hn : nth (length pre) all EmptyString = x).
  { subst all. rewrite <- app_assoc. cbn [app]. rewrite app_nth2 by lia. now rewrite Nat.sub_diag. }
  assert (Hf : firstn (S (length pre)) all = pre ++ [x]).
  { subst all. rewrite firstn_app. replace (S (length pre)) with (length (pre ++ [x])) by (rewrite app_length; simpl; lia).
    rewrite firstn_all, Nat.sub_diag. cbn [firstn]. apply app_nil_r. }
  assert (Hpos : 1 <= occurrences x all).
  { subst all. rewrite !occurrences_app. unfold occurrences at 2. simpl. destruct (string_dec x x); [lia|congruence]. }
  unfold auto_name at 1. rewrite Hn, Hf.
  destruct (Nat.leb_spec (occurrences x all) 1) as [L|L].
  - replace (occurrences x all =? 1) with true by (symmetry; apply Nat.eqb_eq; lia). f_equal.
    apply (IH (x :: post)); [subst all; now rewrite <- app_assoc|].
    intros n. rewrite Hc. destruct (Nat.leb_spec (occurrences n all) 1); auto. f_equal.
    rewrite occurrences_app. unfold occurrences at 2. simpl. destruct (string_dec x n); [subst; lia|lia].
  - replace (occurrences x all =? 1) with false by (symmetry; apply Nat.eqb_neq; lia). f_equal.
    apply (IH (x :: post)); [subst all; now rewrite <- app_assoc|].
    intros n. unfold dget. rewrite (dict_get_set String.eqb string_eqb_spec). destruct (String.eqb n x) eqn:E.
    + apply String.eqb_eq in E. subst n. destruct (Nat.leb_spec (occurrences x all) 1); [lia|]. f_equal.
      rewrite occurrences_app. unfold occurrences at 2. simpl. destruct (string_dec x x); [lia|congruence].
    + specialize (Hc n) as Hn'. unfold dget in Hn'. rewrite Hn'.
      destruct (Nat.leb_spec (occurrences n all) 1); auto. f_equal.
      rewrite occurrences_app. unfold occurrences at 2. simpl. apply String.eqb_neq in E.
      destruct (string_dec x n); [congruence|lia].
Qed.

Lemma name_estimators_ok names : name_estimators names = map (auto_name names) (seq 0 (length names)).
Proof.
  unfold name_estimators. rewrite (number_rev_ok names names []).
  - rewrite rev_involutive. reflexivity.
  - now rewrite app_nil_r.
  - intros n. unfold dget. rewrite (dict_get_filter (fun v => negb (v =? 1))) by apply name_counts_NoDup.
    pose proof (name_counts_get names n) as G. unfold dget in G. rewrite G.
    destruct (Nat.eqb_spec (occurrences n names) 0) as [->|Z]; [reflexivity|].
    destruct (Nat.eqb_spec (occurrences n names) 1) as [->|Z1]; [reflexivity|].
    cbn [negb]. destruct (Nat.leb_spec (occurrences n names) 1); [lia|reflexivity].
Qed.

Lemma name_estimators_length names : length (name_estimators names) = length names.
Proof. rewrite name_estimators_ok, map_length. apply seq_length. Qed.

(** ** Injectivity of the numbering *)

Lemma string_of_nat_inj a b : string_of_nat a = string_of_nat b -> a = b.
Proof.
  unfold string_of_nat. intros H. apply DecimalNat.Unsigned.to_uint_inj.
  assert (E : NilEmpty.uint_of_string (NilEmpty.string_of_uint (Nat.to_uint a)) =
              NilEmpty.uint_of_string (NilEmpty.string_of_uint (Nat.to_uint b))) by now rewrite H.
  rewrite !NilEmpty.usu in E. now injection E.
Qed.

Lemma dash_split a b c d : ~ has_dash a -> ~ has_dash b ->
  String.append a (String.append "-" c) = String.append b (String.append "-" d) -> a = b /\ c = d.
Proof.
  revert b. induction a as [|x a IH]; intros [|y b] Ha Hb H; cbn [String.append has_dash] in *.
  - injection H as ->. auto.
  - injection H as <- _. exfalso. apply Hb. now left.
  - injection H as -> _. exfalso. apply Ha. now left.
  - injection H as -> H. destruct (IH b) as [-> ->]; auto.
Qed.

Lemma has_dash_app a b : has_dash (String.append a (String.append "-" b)).
Proof. induction a as [|x a IH]; cbn; [now left|]. now right. Qed.

Lemma occ_one n : occurrences n [n] = 1.
Proof. unfold occurrences. simpl. destruct (string_dec n n); [reflexivity|congruence]. Qed.

Lemma occ_firstn_mono n (l : list string) i j : i <= j -> occurrences n (firstn i l) <= occurrences n (firstn j l).
Proof.
  intros H. rewrite <- (firstn_skipn i (firstn j l)), firstn_firstn, Nat.min_l by lia. rewrite occurrences_app. lia.
Qed.

Lemma firstn_S_nth {A} (l : list A) i d : i < length l -> firstn (S i) l = firstn i l ++ [nth i l d].
Proof.
  revert i; induction l as [|a l IH]; intros [|i] H; simpl in *; try lia; auto.
  f_equal. rewrite <- IH by lia. reflexivity.
Qed.

Lemma occ_firstn_lt n (l : list string) i j : i < j -> j < length l -> nth j l EmptyString = n ->
  occurrences n (firstn (S i) l) < occurrences n (firstn (S j) l).
Proof.
  intros Hij Hj Hn. rewrite (firstn_S_nth l j EmptyString) by auto. rewrite occurrences_app.
  assert (E1 : occurrences n [nth j l EmptyString] = 1).
  { unfold occurrences. simpl. rewrite Hn. destruct (string_dec n n); [reflexivity|congruence]. }
  pose proof (occ_firstn_mono n l (S i) j ltac:(lia)). lia.
Qed.

Lemma auto_names_inj names i j : (forall n, In n names -> ~ has_dash n) ->
  i < length names -> j < length names -> auto_name names i = auto_name names j -> i = j.
Proof.
  intros Hd Hi Hj. unfold auto_name.
  pose proof (Hd _ (nth_In names EmptyString Hi)) as D1. pose proof (Hd _ (nth_In names EmptyString Hj)) as D2.
  set (a := nth i names EmptyString) in *. set (b := nth j names EmptyString) in *.
  destruct (Nat.eqb_spec (occurrences a names) 1) as [E1|E1], (Nat.eqb_spec (occurrences b names) 1) as [E2|E2]; intros H.
  - (* a = b occurring once *)
    destruct (Nat.lt_trichotomy i j) as [L|[L|L]]; auto; exfalso.
    + pose proof (occ_firstn_lt b names i j L Hj eq_refl) as Q.
      rewrite <- H in Q. pose proof (occ_firstn_mono a names (S j) (length names) ltac:(lia)) as M.
      rewrite firstn_all in M. pose proof (firstn_S_nth names i EmptyString Hi) as F.
      assert (1 <= occurrences a (firstn (S i) names)).
      { rewrite F, occurrences_app. fold a. rewrite occ_one. lia. }
      lia.
    + pose proof (occ_firstn_lt a names j i L Hi eq_refl) as Q.
      rewrite H in Q. pose proof (occ_firstn_mono b names (S i) (length names) ltac:(lia)) as M.
      rewrite firstn_all in M. pose proof (firstn_S_nth names j EmptyString Hj) as F.
      assert (1 <= occurrences b (firstn (S j) names)).
      { rewrite F, occurrences_app. fold b. rewrite occ_one. lia. }
      lia.
  - exfalso. apply D1. rewrite H. apply has_dash_app.
  - exfalso. apply D2. rewrite <- H. apply has_dash_app.
  - apply dash_split in H as [Hab Hs]; auto. apply string_of_nat_inj in Hs. rewrite Hab in Hs.
    destruct (Nat.lt_trichotomy i j) as [L|[L|L]]; auto; exfalso.
    + pose proof (occ_firstn_lt b names i j L Hj eq_refl). lia.
    + pose proof (occ_firstn_lt b names j i L Hi Hab). lia.
Qed.

Lemma auto_names_NoDup names : (forall n, In n names -> ~ has_dash n) -> NoDup (name_estimators names).
Proof.
  intros H. rewrite name_estimators_ok. apply (NoDup_nth _ EmptyString). rewrite map_length, seq_length.
  intros i j Hi Hj E.
  assert (N : forall k, k < length names -> nth k (map (auto_name names) (seq 0 (length names))) EmptyString = auto_name names k).
  { intros k Hk. rewrite nth_indep with (d' := auto_name names 0) by (rewrite map_length, seq_length; auto).
    rewrite map_nth. now rewrite seq_nth by auto. }
  rewrite !N in E by auto. eapply auto_names_inj; eauto.
Qed.

(** ** Flattening and marks *)

Lemma mark_length b i h : length (mark b i h) = length h.
Proof. unfold mark. destruct (nth_error h i); auto. apply update_length. Qed.

Lemma mark_nth b i h j s : nth_error h j = Some s ->
  nth_error (mark b i h) j = Some (if j =? i then set_final b s else s).
Proof.
  intros H. unfold mark. destruct (nth_error h i) as [t|] eqn:E.
  - rewrite update_nth. destruct (Nat.eqb_spec j i) as [->|N]; simpl; auto.
    assert (L : i < length h) by (apply nth_error_Some; congruence).
    destruct (Nat.ltb_spec i (length h)); [|lia]. congruence.
  - destruct (Nat.eqb_spec j i) as [->|N]; auto. congruence.
Qed.

Lemma marks_length p h : length (fold_left (fun a (ni : string * nat) => mark false (snd ni) a) p h) = length h.
Proof. revert h; induction p as [|x p IH]; intros h; simpl; auto. now rewrite IH, mark_length. Qed.

Lemma marks_nth (p : list (string * nat)) h j s : nth_error h j = Some s ->
  nth_error (fold_left (fun a ni => mark false (snd ni) a) p h) j =
  Some (if existsb (Nat.eqb j) (map snd p) then set_final false s else s).
Proof.
  revert h s. induction p as [|x p IH]; intros h s H; simpl; auto.
  rewrite (IH _ _ (mark_nth false (snd x) h j s H)). f_equal.
  destruct (j =? snd x); simpl; [|destruct (existsb _ _); reflexivity]. destruct (existsb _ _); destruct s; reflexivity.
Qed.

Definition pipe_ids (steps : list step) : list nat :=
  flat_map (fun s => match s with SPipe _ p => map snd p | _ => [] end) steps.

Lemma flatten_ok steps h : exists h1, flatten steps h = (h1, flat_map flat_step steps) /\ length h1 = length h /\
  forall j s, nth_error h j = Some s ->
    nth_error h1 j = Some (if existsb (Nat.eqb j) (pipe_ids steps) then set_final false s else s).
Proof.
  revert h. induction steps as [|st steps IH]; intros h; simpl.
  - exists h. auto.
  - destruct st as [n e|n i|n p]; simpl.
    + destruct (IH h) as [h1 [-> [E2 E3]]]. exists h1. auto.
    + destruct (IH h) as [h1 [-> [E2 E3]]]. exists h1. auto.
    + destruct (IH (fold_left (fun a ni => mark false (snd ni) a) p h)) as [h1 [-> [E2 E3]]].
      exists h1. split; auto. split; [now rewrite E2, marks_length|].
      intros j s Hs. rewrite (E3 _ _ (marks_nth p h j s Hs)). rewrite existsb_app. f_equal.
      destruct (existsb _ (map snd p)), (existsb _ (pipe_ids steps)); simpl; auto; destruct s; reflexivity.
Qed.

(** ** Wrapping *)

(** The selector created for a plain estimator by a named default selector. *)
Lemma wrap_all_ok cls nm mask items h :
  (nm = "shared"%string /\ cls = CShared) \/ (nm = "per_domain"%string /\ cls = CPerDomain) ->
  (forall i, In (ISel i) items -> i < length h) ->
  exists h2 ids, wrap_all (SelName nm) mask items h = Ok (h2, ids) /\ length ids = length items /\
    (forall j, j < length h -> nth_error h2 j = nth_error h j) /\ length h <= length h2 /\
    (forall k i, nth_error items k = Some (ISel i) -> nth_error ids k = Some i) /\
    (forall k e, nth_error items k = Some (IEst e) -> exists j m, nth_error ids k = Some j /\ length h <= j /\
        nth_error h2 j = Some (mkSel cls e m false) /\
        (no_predictor_upto items k -> m = mask) /\
        ((exists k' e', k' <= k /\ nth_error items k' = Some (IEst e') /\ e_predicts e' = true) -> m = false)) /\
    (NoDup (flat_map (fun it => match it with ISel i => [i] | _ => [] end) items) -> NoDup ids) /\
    (forall j, In j ids -> (In (ISel j) items \/ length h <= j) /\ j < length h2).
Proof.
  intros Hcls. revert mask h. induction items as [|it items IH]; intros mask h Hi.
  - exists h, []. split; auto. split; auto. split; auto. split; auto.
    split; [intros [|k] i H; discriminate|]. split; [intros [|k] i H; discriminate|]. split; [constructor|easy].
  - assert (W : forall m e, wrap_est (SelName nm) m e = Ok (mkSel cls e m false)).
    { intros m e. destruct Hcls as [[-> ->]|[-> ->]]; reflexivity. }
    destruct it as [e|i]; cbn [wrap_all].
    + rewrite W. cbn [bind]. set (mask' := if e_predicts e then false else mask).
      destruct (IH mask' (h ++ [mkSel cls e mask' false])) as [h2 [ids [E [L [P1 [P2 [P3 [P4 [P5 P6]]]]]]]]].
      { intros i Hin. rewrite app_length. simpl. specialize (Hi i (or_intror Hin)). lia. }
      rewrite E. cbn [bind fst snd]. rewrite app_length in P1, P2, P4, P6. cbn [length] in P1, P2, P4, P6.
      assert (N0 : nth_error h2 (length h) = Some (mkSel cls e mask' false)).
      { rewrite P1 by lia. rewrite nth_error_app2 by lia. now rewrite Nat.sub_diag. }
      exists h2, (length h :: ids). split; auto. split; [simpl; lia|]. split.
      { intros j Hj. rewrite P1 by lia. now rewrite nth_error_app1. }
      split; [lia|]. split.
      { intros [|k] i H; simpl in *; [discriminate|auto]. }
      split.
      { intros [|k] e' H; simpl in H.
        - injection H as <-. exists (length h), mask'. split; auto. split; auto. split; auto. split.
          + intros Hn. specialize (Hn 0 e ltac:(lia) eq_refl). subst mask'. now rewrite Hn.
          + intros [k' [e' [Hk [He Hp]]]]. assert (k' = 0) by lia. subst k'. simpl in He. injection He as <-.
            subst mask'. now rewrite Hp.
        - destruct (P4 k e' H) as [j [m [Q1 [Q2 [Q3 [Q4 Q5]]]]]]. exists j, m. split; auto. split; [lia|]. split; auto. split.
          + intros Hn. rewrite Q4.
            * subst mask'. now rewrite (Hn 0 e ltac:(lia) eq_refl).
            * intros j' e'' Hj' He''. apply (Hn (S j') e''); [lia|exact He''].
          + intros [k' [e'' [Hk [He Hp]]]]. destruct k' as [|k'].
            * simpl in He. injection He as <-. (* masking already off *)
              destruct (Nat.le_gt_cases (length items) 0) as [Z|Z]; [destruct items; [destruct k; discriminate|simpl in Z; lia]|].
              assert (D : (exists k' e', k' <= k /\ nth_error items k' = Some (IEst e') /\ e_predicts e' = true) \/ no_predictor_upto items k).
              { clear. induction k as [|k IHk].
                - destruct (nth_error items 0) as [[e|i]|] eqn:E0.
                  + destruct (e_predicts e) eqn:Ep; [left; exists 0, e; auto|]. right. intros j e0 Hj H0.
                    assert (j = 0) by lia. subst. congruence.
                  + right. intros j e0 Hj H0. assert (j = 0) by lia. subst. congruence.
                  + right. intros j e0 Hj H0. assert (j = 0) by lia. subst. congruence.
                - destruct IHk as [[k' [e' [A B]]]|IHk]; [left; exists k', e'; split; auto|].
                  destruct (nth_error items (S k)) as [[e|i]|] eqn:E0.
                  + destruct (e_predicts e) eqn:Ep; [left; exists (S k), e; auto|]. right. intros j e0 Hj H0.
                    destruct (Nat.eq_dec j (S k)); [subst; congruence|]. apply (IHk j e0); auto. lia.
                  + right. intros j e0 Hj H0. destruct (Nat.eq_dec j (S k)); [subst; congruence|]. apply (IHk j e0); auto. lia.
                  + right. intros j e0 Hj H0. destruct (Nat.eq_dec j (S k)); [subst; congruence|]. apply (IHk j e0); auto. lia. }
              destruct D as [D|D]; [now apply Q5|]. rewrite Q4 by auto. subst mask'. now rewrite Hp.
            * apply Q5. exists k', e''. split; [lia|]. auto. }
      split.
      { intros ND. constructor; auto. intros C. destruct (P6 _ C) as [[C1|C1] _]; [|lia].
        specialize (Hi (length h) (or_intror C1)). lia. }
      { intros j [<-|Hj]; [split; [right; lia|lia]|]. destruct (P6 _ Hj) as [[A|A] B]; split; auto; [left; now right|right; lia]. }
    + destruct (IH mask h) as [h2 [ids [E [L [P1 [P2 [P3 [P4 [P5 P6]]]]]]]]].
      { intros j Hin. apply Hi. now right. }
      rewrite E. cbn [bind fst snd]. exists h2, (i :: ids). split; auto. split; [simpl; lia|]. split; auto. split; auto. split.
      { intros [|k] i' H; simpl in *; [now injection H as <-|auto]. }
      split.
      { intros [|k] e' H; simpl in H; [discriminate|].
        destruct (P4 k e' H) as [j [m [Q1 [Q2 [Q3 [Q4 Q5]]]]]]. exists j, m. split; auto. split; auto. split; auto. split.
        - intros Hn. apply Q4. intros j' e'' Hj' He''. apply (Hn (S j') e''); [lia|exact He''].
        - intros [k' [e'' [Hk [He Hp]]]]. destruct k' as [|k']; [discriminate|]. apply Q5. exists k', e''. split; [lia|auto]. }
      split.
      { intros ND. cbn [flat_map app] in ND. inversion ND; subst. constructor; auto. intros C.
        destruct (P6 _ C) as [[C1|C1] _].
        - apply H1. apply in_flat_map. exists (ISel i). split; auto. now left.
        - specialize (Hi i (or_introl eq_refl)). lia. }
      { intros j [<-|Hj].
        - split; [left; now left|]. specialize (Hi i (or_introl eq_refl)). lia.
        - destruct (P6 _ Hj) as [[A|A] B]; split; auto. left; now right. }
Qed.

(** ** The whole constructor *)

Lemma base_name_set_final b s : base_name (set_final b s) = base_name s.
Proof. destruct s; reflexivity. Qed.

Lemma combine_nth_error {A B} (a : list A) (b : list B) k x y :
  nth_error a k = Some x -> nth_error b k = Some y -> nth_error (combine a b) k = Some (x, y).
Proof.
  revert b k; induction a as [|u a IH]; intros [|v b] [|k] H1 H2; simpl in *; try discriminate; auto.
  injection H1 as ->; injection H2 as ->; auto.
Qed.

Lemma rev_last {A} (l : list A) i r d : rev l = i :: r -> l <> [] /\ i = last l d /\ nth_error l (length l - 1) = Some i.
Proof.
  intros H. assert (E : l = rev r ++ [i]) by (rewrite <- (rev_involutive l), H; reflexivity).
  subst l. split; [now destruct (rev r)|]. split; [now rewrite last_last|].
  rewrite app_length. simpl. rewrite nth_error_app2 by lia.
  replace (length (rev r) + 1 - 1 - length (rev r)) with 0 by lia. reflexivity.
Qed.

Lemma wrap_all_length a mask items h h2 ids : wrap_all a mask items h = Ok (h2, ids) ->
  length ids = length items /\ length h <= length h2 /\ (forall j, j < length h -> nth_error h2 j = nth_error h j).
Proof.
  revert mask h h2 ids. induction items as [|[e|i] items IH]; intros mask h h2 ids H; cbn [wrap_all] in H.
  - injection H as <- <-. auto.
  - apply bind_ok in H as [s [_ H]]. apply bind_ok in H as [[h3 ids3] [H3 H]]. injection H as <- <-.
    apply IH in H3 as [L1 [L2 L3]]. rewrite app_length in L2, L3. simpl in *.
    split; [lia|]. split; [lia|]. intros j Hj. rewrite L3 by lia. now rewrite nth_error_app1.
  - apply bind_ok in H as [[h3 ids3] [H3 H]]. injection H as <- <-.
    apply IH in H3 as [L1 [L2 L3]]. simpl. split; [lia|]. auto.
Qed.

(** What any successful call returns. *)
Lemma make_inv steps a mask h h' named : make_da_pipeline steps a mask h = Ok (h', named) ->
  exists h1 h2 ids names i,
    flatten steps h = (h1, flat_map flat_step steps) /\
    wrap_all a mask (map snd (flat_map flat_step steps)) h1 = Ok (h2, ids) /\
    mapM (fun i => match nth_error h2 i with Some s => Ok (base_name s) | None => Err AttributeError end) ids = Ok names /\
    named = map (fun q => (match fst (fst q) with Some n => n | None => snd (fst q) end, snd q))
                (combine (combine (map fst (flat_map flat_step steps)) (name_estimators names)) ids) /\
    nth_error ids (length ids - 1) = Some i /\ h' = mark true i h2 /\ ids <> [] /\
    length names = length ids /\ length ids = length (flat_map flat_step steps) /\
    map snd named = ids.
Proof.
  destruct (flatten_ok steps h) as [h1 [E1 [E2 E3]]]. unfold make_da_pipeline. destruct steps as [|st steps]; [discriminate|].
  rewrite E1. intros H. apply bind_ok in H as [[h2 ids] [Hw H]]. apply bind_ok in H as [names [Hn H]].
  destruct (rev ids) as [|i r] eqn:Er; [discriminate|]. injection H as <- <-.
  apply (rev_last ids i r 0) in Er as [R1 [R2 R3]].
  pose proof (mapM_ok_length _ _ _ Hn) as Ln. pose proof (wrap_all_length _ _ _ _ _ _ Hw) as [Lw _].
  rewrite map_length in Lw.
  exists h1, h2, ids, names, i. repeat (split; [solve [auto]|]).
  assert (G : forall (A : list (option string)) (B : list string) (C : list nat), length A = length C -> length B = length C ->
     map snd (map (fun q : option string * string * nat => (match fst (fst q) with Some n => n | None => snd (fst q) end, snd q)) (combine (combine A B) C)) = C).
  { clear. intros A B C. revert A B. induction C as [|c C IH]; intros [|a A] [|b B] H1 H2; simpl in *; try discriminate; auto.
    f_equal. apply IH; lia. }
  cbn [flat_map] in Lw. apply G; rewrite ?map_length, ?name_estimators_length; lia.
Qed.

Lemma mapM_nth_error {A B} (f : A -> res B) l r k x : mapM f l = Ok r -> nth_error l k = Some x ->
  exists y, nth_error r k = Some y /\ f x = Ok y.
Proof.
  revert r k. induction l as [|a l IH]; intros r k H Hk; [destruct k; discriminate|].
  cbn [mapM] in H. apply bind_ok in H as [y [Hy H]]. apply bind_ok in H as [r' [Hr H]]. injection H as <-.
  destruct k as [|k]; simpl in *; [injection Hk as ->; eauto|]. eauto.
Qed.

Lemma nth_error_lt_some {A} (l : list A) k : k < length l -> exists x, nth_error l k = Some x.
Proof. intros H. destruct (nth_error l k) eqn:E; eauto. apply nth_error_None in E. lia. Qed.

Lemma mark_lookup b i h j : nth_error (mark b i h) j = option_map (fun s => if j =? i then set_final b s else s) (nth_error h j).
Proof.
  destruct (nth_error h j) as [s|] eqn:E; simpl.
  - now apply mark_nth.
  - apply nth_error_None. rewrite mark_length. now apply nth_error_None.
Qed.

(** The chosen name of every step. *)
Lemma make_names steps a mask h h' named : make_da_pipeline steps a mask h = Ok (h', named) ->
  exists bases, length bases = length named /\
    length named = length (flat_map flat_step steps) /\
    forall k u it, nth_error (flat_map flat_step steps) k = Some (u, it) ->
      exists i s, nth_error named k = Some (match u with Some n => n | None => auto_name bases k end, i) /\
                  nth_error h' i = Some s /\ nth_error bases k = Some (base_name s).
Proof.
  intros H. apply make_inv in H as [h1 [h2 [ids [names [i0 [E1 [E2 [E3 [E4 [E5 [E6 [E7 [E8 [E9 E10]]]]]]]]]]]]]].
  assert (Ln : length named = length ids) by (rewrite <- E10; now rewrite map_length).
  exists names. split; [lia|]. split; [lia|]. intros k u it Hk.
  assert (Lk : k < length ids) by (rewrite E9; apply nth_error_Some; congruence).
  destruct (nth_error_lt_some ids k Lk) as [i Hi].
  destruct (mapM_nth_error _ _ _ _ _ E3 Hi) as [b [Hb Hs]].
  destruct (nth_error h2 i) as [s|] eqn:Es; [|discriminate]. injection Hs as <-.
  exists i, (if i =? i0 then set_final true s else s). split; [|split].
  - rewrite E4. rewrite nth_error_map.
    assert (Hu : nth_error (map fst (flat_map flat_step steps)) k = Some u) by (rewrite nth_error_map, Hk; reflexivity).
    assert (Ha : nth_error (name_estimators names) k = Some (auto_name names k)).
    { rewrite name_estimators_ok, nth_error_map.
      rewrite (nth_error_nth' (seq 0 (length names)) 0) by (rewrite seq_length; lia).
      rewrite seq_nth by lia. reflexivity. }
    rewrite (combine_nth_error _ _ _ _ _ (combine_nth_error _ _ _ _ _ Hu Ha) Hi). reflexivity.
  - rewrite E6, mark_lookup, Es. reflexivity.
  - rewrite Hb. destruct (i =? i0); auto.
Qed.

Lemma existsb_eqb_In j l : existsb (Nat.eqb j) l = true <-> In j l.
Proof.
  rewrite existsb_exists. split; [intros [x [H1 H2]]; apply Nat.eqb_eq in H2; now subst|].
  intros H. exists j. split; auto. apply Nat.eqb_refl.
Qed.

Lemma pipe_ids_flat_eq steps :
  flat_map (fun it => match it with ISel i => [i] | _ => [] end) (map snd (flat_map flat_step steps)) = nested_ids steps.
Proof.
  unfold nested_ids. induction steps as [|[n e|n j|n p] steps IH]; simpl; auto; [now rewrite IH|].
  rewrite map_app, flat_map_app, IH. f_equal.
  rewrite map_map. simpl. clear. induction p as [|x p IHp]; simpl; congruence.
Qed.

Lemma make_named_ok steps nm cls mask h :
  (nm = "shared"%string /\ cls = CShared) \/ (nm = "per_domain"%string /\ cls = CPerDomain) ->
  flat_map flat_step steps <> [] ->
  (forall i, In i (nested_ids steps) -> i < length h) ->
  NoDup (nested_ids steps) ->
  (forall n i s, In (SSel n i) steps -> nth_error h i = Some s -> sl_final s = false) ->
  exists h' named, make_da_pipeline steps (SelName nm) mask h = Ok (h', named) /\
    length named = length (flat_map flat_step steps) /\
    NoDup (map snd named) /\
    forall k u it, nth_error (flat_map flat_step steps) k = Some (u, it) ->
      exists n i s, nth_error named k = Some (n, i) /\ nth_error h' i = Some s /\
        (forall n', u = Some n' -> n = n') /\
        sl_final s = (S k =? length named) /\
        match it with
        | ISel j => i = j /\ exists s0, nth_error h j = Some s0 /\
                    sl_cls s = sl_cls s0 /\ sl_base s = sl_base s0 /\ sl_mask s = sl_mask s0
        | IEst e => sl_cls s = cls /\ sl_base s = e /\ length h <= i /\
            (no_predictor_upto (map snd (flat_map flat_step steps)) k -> sl_mask s = mask) /\
            ((exists k' e', k' <= k /\ nth_error (map snd (flat_map flat_step steps)) k' = Some (IEst e') /\
                            e_predicts e' = true) -> sl_mask s = false)
        end.
Proof.
  intros Hc Hne Hv Hnd Hbare.
  destruct (flatten_ok steps h) as [h1 [F1 [F2 F3]]].
  destruct (wrap_all_ok cls nm mask (map snd (flat_map flat_step steps)) h1 Hc) as [h2 [ids [W1 [W2 [W3 [W4 [W5 [W6 [W7 W8]]]]]]]]].
  { intros i Hi. rewrite F2. apply Hv. rewrite <- pipe_ids_flat_eq. apply in_flat_map. exists (ISel i). split; auto. now left. }
  rewrite pipe_ids_flat_eq in W7. specialize (W7 Hnd). rewrite map_length in W2.
  assert (Hnames : exists names, mapM (fun i => match nth_error h2 i with Some s => Ok (base_name s) | None => Err AttributeError end) ids = Ok names).
  { assert (G : forall l, (forall j, In j l -> j < length h2) ->
      exists names, mapM (fun i => match nth_error h2 i with Some s => Ok (base_name s) | None => Err AttributeError end) l = Ok names).
    { induction l as [|j l IH]; intros Hl; [exists []; reflexivity|].
      destruct (nth_error_lt_some h2 j (Hl j (or_introl eq_refl))) as [s Hs].
      destruct IH as [ns Hns]; [intros; apply Hl; now right|]. exists (base_name s :: ns).
      cbn [mapM]. rewrite Hs. cbn [bind]. now rewrite Hns. }
    apply G. intros j Hj. now apply W8. }
  destruct Hnames as [names Hnames].
  assert (Hids : ids <> []).
  { intros ->. apply Hne. simpl in W2. now destruct (flat_map flat_step steps). }
  destruct (rev ids) as [|i0 r] eqn:Er.
  { exfalso. apply Hids. rewrite <- (rev_involutive ids), Er. reflexivity. }
  eexists. eexists. 
  assert (M : make_da_pipeline steps (SelName nm) mask h = Ok (mark true i0 h2, 
     map (fun q => (match fst (fst q) with Some n => n | None => snd (fst q) end, snd q))
                (combine (combine (map fst (flat_map flat_step steps)) (name_estimators names)) ids))).
  { unfold make_da_pipeline. destruct steps as [|st steps']; [now simpl in Hne|]. rewrite F1. rewrite W1. cbn [bind]. rewrite Hnames.
    cbn [bind]. rewrite Er. reflexivity. }
  split; [exact M|].
  pose proof (make_inv _ _ _ _ _ _ M) as [h1' [h2' [ids' [names' [i' [V1 [V2 [V3 [V4 [V5 [V6 [V7 [V8 [V9 V10]]]]]]]]]]]]]].
  rewrite F1 in V1. injection V1 as <-. rewrite W1 in V2. injection V2 as <- <-. rewrite Hnames in V3. injection V3 as <-.
  clear V4. apply (rev_last ids i0 r 0) in Er as [R1 [R2 R3]].
  pose proof (make_names _ _ _ _ _ _ M) as [bases [B1 [B2 B3]]].
  match type of M with _ = Ok (_, ?n) => set (named := n) in * end. split; [exact B2|]. split; [now rewrite V10|].
  intros k u it Hk. destruct (B3 k u it Hk) as [i [s [N1 [N2 _]]]].
  assert (Hik : nth_error ids k = Some i) by (rewrite <- V10, nth_error_map, N1; reflexivity).
  eexists. exists i, s. split; [exact N1|]. split; [exact N2|]. split.
  { intros n' ->. reflexivity. }
  assert (Hit : nth_error (map snd (flat_map flat_step steps)) k = Some it) by (rewrite nth_error_map, Hk; reflexivity).
  assert (Hlen : length named = length ids) by (rewrite <- V10, map_length; reflexivity).
  assert (Hlast : (i =? i0) = (S k =? length named)).
  { rewrite Hlen. destruct (Nat.eqb_spec (S k) (length ids)) as [Ek|Ek].
    - replace (length ids - 1) with k in R3 by lia. rewrite Hik in R3. injection R3 as ->. apply Nat.eqb_refl.
    - apply Nat.eqb_neq. intros ->. apply Ek.
      assert (k = length ids - 1); [|destruct ids; simpl in *; [congruence|lia]].
      eapply NoDup_nth_error; eauto; [apply nth_error_Some; congruence|congruence]. }
  rewrite mark_lookup in N2. destruct (nth_error h2 i) as [s2|] eqn:E2; [|discriminate]. simpl in N2. injection N2 as <-.
  rewrite Hlast.
  assert (Fin2 : sl_final s2 = false).
  { destruct it as [e|j].
    - destruct (W6 k e Hit) as [j [m [Q1 [Q2 [Q3 _]]]]]. rewrite Hik in Q1. injection Q1 as <-. rewrite E2 in Q3. now injection Q3 as ->.
    - specialize (W5 k j Hit). rewrite Hik in W5. injection W5 as ->.
      assert (Hj : In j (nested_ids steps)).
      { rewrite <- pipe_ids_flat_eq. apply in_flat_map. exists (ISel j). split; [now apply nth_error_In in Hit|now left]. }
      specialize (Hv j Hj). destruct (nth_error_lt_some h j Hv) as [s0 Hs0].
      rewrite W3 in E2 by lia. rewrite (F3 _ _ Hs0) in E2. injection E2 as <-.
      destruct (existsb (Nat.eqb j) (pipe_ids steps)) eqn:Ex; [reflexivity|].
      assert (Hb : exists n, In (SSel n j) steps).
      { unfold nested_ids in Hj. apply in_flat_map in Hj as [st [H1 H2]].
        destruct st as [n e|n q|n p]; [easy| |].
        - destruct H2 as [->|[]]. eauto.
        - exfalso. assert (T : existsb (Nat.eqb j) (pipe_ids steps) = true); [|congruence].
          apply existsb_eqb_In. unfold pipe_ids. apply in_flat_map. exists (SPipe n p). auto. }
      destruct Hb as [n Hb]. eapply Hbare; eauto. }
  split.
  { destruct (S k =? length named); [reflexivity|exact Fin2]. }
  destruct it as [e|j].
  - destruct (W6 k e Hit) as [j [m [Q1 [Q2 [Q3 [Q4 Q5]]]]]]. rewrite Hik in Q1. injection Q1 as <-. rewrite E2 in Q3. injection Q3 as ->.
    destruct (S k =? length named); simpl; (split; [auto|]; split; [auto|]; split; [lia|auto]).
  - specialize (W5 k j Hit). rewrite Hik in W5. injection W5 as ->. split; auto.
    assert (Hj : In j (nested_ids steps)).
    { rewrite <- pipe_ids_flat_eq. apply in_flat_map. exists (ISel j). split; [now apply nth_error_In in Hit|now left]. }
    specialize (Hv j Hj). destruct (nth_error_lt_some h j Hv) as [s0 Hs0].
    exists s0. split; auto. rewrite W3 in E2 by lia. rewrite (F3 _ _ Hs0) in E2. injection E2 as <-.
    destruct (S k =? length named), (existsb (Nat.eqb j) (pipe_ids steps)); destruct s0; simpl; auto.
Qed.
