(** Lemmas about DeepDADataset. *)
From Coq Require Import String List ZArith QArith Bool Arith Lia Reals Lra Permutation Sorted.
From Verif Require Import Np NpFacts Labels RVec RVecFacts Spec SpecFacts UtilsProofs DeepModel DeepSpec.
Import ListNotations.
Local Open Scope nat_scope.
Local Open Scope list_scope.

Lemma kept_select {A} m : forall xs : list A, select m xs = kept m xs.
Proof. unfold kept. induction m as [|b m IH]; intros [|x xs]; try reflexivity. cbn. destruct b; cbn; now rewrite IH. Qed.
Lemma kept_nil {A} m : kept m (@nil A) = [].
Proof. unfold kept. now destruct m. Qed.

Lemma list_ext_nth {A} : forall l1 l2 : list A, length l1 = length l2 -> (forall i, i < length l1 -> nth_error l1 i = nth_error l2 i) -> l1 = l2.
Proof.
  induction l1 as [|a l1 IH]; intros [|b l2] L H; try discriminate; auto. pose proof (H 0 ltac:(cbn; lia)) as H0. injection H0 as ->. f_equal.
  apply IH; [now injection L|]. intros i Hi. apply (H (S i)). cbn. lia.
Qed.

Lemma infer_idx_fold sd doms : forall r L, length r = length sd -> NoDup (L ++ doms) ->
  (forall i, i < length sd -> In (nth i sd 0%Z) L -> nth i r 0 = rank sd i) ->
  exists r', fold_left (fun acc dom => r <- acc ;; let mask := map (Z.eqb dom) sd in np_setmask mask (seq 0 (count mask)) r) doms (Ok r) = Ok r' /\
    length r' = length sd /\ (forall i, i < length sd -> In (nth i sd 0%Z) (L ++ doms) -> nth i r' 0 = rank sd i).
Proof.
  induction doms as [|k doms IH]; intros r L Lr ND H.
  - exists r. split; [reflexivity|]. split; [auto|]. intros i Hi. rewrite app_nil_r. auto.
  - cbn [fold_left bind]. cbv zeta. set (mask := map (Z.eqb k) sd).
    assert (E : np_setmask mask (seq 0 (count mask)) r = Ok (place mask (seq 0 (count mask)) r)).
    { unfold np_setmask, mask. now rewrite map_length, Lr, Nat.eqb_refl, seq_length, Nat.eqb_refl. }
    rewrite E. destruct (IH (place mask (seq 0 (count mask)) r) (L ++ [k])) as (r' & A & B & C).
    + now rewrite place_length.
    + now rewrite <- app_assoc.
    + intros i Hi HIn. assert (P := place_nth mask (seq 0 (count mask)) r i).
      rewrite seq_length in P. specialize (P ltac:(unfold mask; now rewrite map_length) eq_refl ltac:(lia)).
      assert (N : nth i mask false = Z.eqb k (nth i sd 0%Z)).
      { unfold mask. rewrite (nth_indep _ false (Z.eqb k 0%Z)) by now rewrite map_length. now rewrite map_nth. }
      rewrite N in P. clear N.
      destruct (Z.eqb_spec k (nth i sd 0%Z)) as [Q|Q].
      * assert (CL : count (firstn i mask) < count mask).
        { rewrite <- (firstn_skipn i mask) at 2. rewrite count_app.
          assert (S0 : skipn i mask = true :: skipn (S i) mask).
          { unfold mask. clear - Hi Q. revert i Hi Q. induction sd as [|s sd IH]; intros i Hi Q; [cbn in Hi; lia|]. destruct i as [|i]; cbn in *.
            - rewrite Q, Z.eqb_refl. reflexivity.
            - apply IH; [lia|auto]. }
          rewrite S0. cbn. lia. }
        assert (NE : nth_error (place mask (seq 0 (count mask)) r) i = Some (count (firstn i mask))).
        { rewrite P. rewrite (nth_error_nth' _ 0) by now rewrite seq_length. rewrite seq_nth by auto. reflexivity. }
        apply (nth_error_nth _ _ 0) in NE. rewrite NE. unfold rank. rewrite <- Q. rewrite <- count_map. unfold mask. now rewrite firstn_map.
      * apply in_app_iff in HIn as [HIn|[->|[]]]; [|congruence].
        rewrite <- (H i Hi HIn).
        destruct (nth_error r i) as [v|] eqn:Ev; [|apply nth_error_None in Ev; lia].
        apply (nth_error_nth _ _ 0) in P. rewrite P. symmetry. now apply nth_error_nth.
    + exists r'. split; [exact A|]. split; [exact B|]. intros i Hi HIn. apply C; auto. rewrite <- app_assoc. exact HIn.
Qed.

Lemma infer_idx_ok sd : infer_idx sd = Ok (map (rank sd) (seq 0 (length sd))).
Proof.
  destruct (infer_idx_fold sd (unique sd) (repeat 0 (length sd)) []) as (r & A & B & C).
  - apply repeat_length.
  - apply unique_NoDup.
  - intros i Hi [].
  - assert (E : infer_idx sd = Ok r) by exact A. rewrite E. f_equal. apply (nth_ext _ _ 0 (rank sd 0)); [now rewrite map_length, seq_length|].
    intros i Hi. rewrite C; [|lia|cbn; apply unique_In, nth_In; lia]. rewrite map_nth, seq_nth by lia. reflexivity.
Qed.

Section DS.
  Context {Row : Type}.
  Variable row_ok : Row -> bool.
  Notation ds := (ds Row). Notation consistent := (consistent row_ok).

  Definition given_y (n : nat) (y : option (list val)) : list val := match y with None | Some [] => repeat (no_label) n | Some l => l end.
  Definition given_sd (n : nat) (sd : dom_arg) : list Z := match sd with DomArr (k :: l) => k :: l | _ => repeat 0%Z n end.
  Definition given_w (w : option (list R)) : list R := match w with None => [] | Some l => l end.
  Definition is_int (sd : dom_arg) : bool := match sd with DomInt _ => true | _ => false end.

  Lemma labelled_no n : map labelled (repeat no_label n) = repeat false n.
  Proof. induction n; cbn; auto. now rewrite IHn. Qed.

  Lemma given_y_length n y : match y with None => True | Some l => length l = n end -> length (given_y n y) = n.
  Proof. destruct y as [[|v l]|]; cbn; auto; intros; rewrite ?repeat_length; auto. Qed.
  Lemma given_sd_length n sd : match sd with DomArr l => length l = n | _ => True end -> length (given_sd n sd) = n.
  Proof. destruct sd as [|k|[|k l]]; cbn; intros; rewrite ?repeat_length; auto. Qed.

  Lemma init_finish X y sd w : is_int sd = false ->
    length (given_y (length X) y) = length X -> length (given_sd (length X) sd) = length X ->
    given_w w = [] \/ length (given_w w) = length X ->
    (d <- initialize Row X y sd w ;; finish Row d) =
      Ok (mkDs Row X (given_y (length X) y) (given_sd (length X) sd) (given_w w) (map labelled (given_y (length X) y))
               (map (rank (given_sd (length X) sd)) (seq 0 (length X)))).
  Proof.
    intros NI Ly Lsd Lw. unfold initialize.
    assert (E1 : match sd with DomNone | DomArr [] => Ok (repeat 0%Z (length X)) | DomInt _ => Err TypeError | DomArr (k :: l) => Ok (k :: l) end
       = Ok (given_sd (length X) sd)) by (destruct sd as [|k|[|k l]]; cbn in *; auto; discriminate).
    replace (match sd with DomNone => Ok (repeat 0%Z (length X)) | DomInt _ => Err TypeError | DomArr ([] as l) => Ok (repeat 0%Z (length X))
             | DomArr ((_ :: _) as l) => Ok l end) with (Ok (given_sd (length X) sd)) by (rewrite <- E1; now destruct sd as [|k|[|k l]]).
    cbn [bind].
    assert (E2 : match y with None => (repeat no_label (length X), repeat false (length X)) | Some ([] as l) => (repeat no_label (length X), repeat false (length X))
                 | Some ((_ :: _) as l) => (l, map labelled l) end = (given_y (length X) y, map labelled (given_y (length X) y))).
    { destruct y as [[|v l]|]; cbn [given_y]; rewrite ?labelled_no; reflexivity. }
    rewrite E2. cbn [fst snd]. fold (given_w w). unfold finish.
    assert (C : is_correct Row (mkDs Row X (given_y (length X) y) (given_sd (length X) sd) (given_w w) (map labelled (given_y (length X) y)) []) = true).
    { unfold is_correct, has_weights. cbn [t_X t_y t_sd t_w]. rewrite Ly, Lsd, Nat.eqb_refl. cbn [andb].
      destruct Lw as [-> | ->]; [cbn; now rewrite orb_true_r|]. now rewrite Nat.eqb_refl. }
    rewrite C. cbn [t_X t_y t_sd t_w t_has_y]. rewrite infer_idx_ok. cbn [bind]. now rewrite Lsd.
  Qed.

  Lemma dataset_ok X y sd w : (forall x, In x X -> row_ok x = true) -> is_int sd = false ->
    length (given_y (length X) y) = length X -> length (given_sd (length X) sd) = length X ->
    given_w w = [] \/ length (given_w w) = length X ->
    exists d, dataset Row row_ok X y sd w = Ok d /\ consistent d /\ t_X _ d = X /\ t_y _ d = given_y (length X) y /\
      t_sd _ d = given_sd (length X) sd /\ t_w _ d = given_w w.
  Proof.
    intros HR NI Ly Lsd Lw. unfold dataset. rewrite (proj2 (forallb_forall _ _) HR). rewrite init_finish by auto.
    eexists. split; [reflexivity|]. split; [|repeat split]. constructor; cbn [t_X t_y t_sd t_w t_has_y t_idx]; auto.
  Qed.

  Lemma dataset_inv X y sd w d : dataset Row row_ok X y sd w = Ok d ->
    consistent d /\ t_X _ d = X /\ t_y _ d = given_y (length X) y /\ t_sd _ d = given_sd (length X) sd /\ t_w _ d = given_w w.
  Proof.
    unfold dataset. destruct (forallb row_ok X) eqn:HR; [|discriminate]. intros H. pose proof (proj1 (forallb_forall _ _) HR) as HR'. clear HR.
    assert (NI : is_int sd = false) by (destruct sd; auto; discriminate H).
    assert (K : length (given_y (length X) y) = length X /\ length (given_sd (length X) sd) = length X /\ (given_w w = [] \/ length (given_w w) = length X)).
    { unfold initialize in H.
      assert (HC : exists d0, is_correct Row d0 = true /\ t_X _ d0 = X /\ t_y _ d0 = given_y (length X) y /\ t_sd _ d0 = given_sd (length X) sd /\ t_w _ d0 = given_w w).
      { destruct sd as [|k|[|k l]]; try discriminate H; cbn [bind] in H; unfold finish in H;
          match type of H with context [if is_correct Row ?q then _ else _] => destruct (is_correct Row q) eqn:Q; [|discriminate H]; exists q end;
          (split; [exact Q|]); destruct y as [[|v y]|]; cbn [t_X t_y t_sd t_w fst given_y given_sd given_w]; auto. }
      destruct HC as (d0 & Q & EX & EY & ES & EW). unfold is_correct, has_weights in Q. rewrite EX, EY, ES, EW in Q.
      apply andb_true_iff in Q as [Q Q3]. apply andb_true_iff in Q as [Q1 Q2]. apply Nat.eqb_eq in Q1, Q2.
      split; [lia|]. split; [lia|]. apply orb_true_iff in Q3 as [Q3|Q3]; [apply Nat.eqb_eq in Q3; auto|].
      left. destruct (given_w w); [auto|discriminate Q3]. }
    destruct K as (Ly & Lsd & Lw). destruct (dataset_ok X y sd w HR' NI Ly Lsd Lw) as (d' & E & R). unfold dataset in E.
    rewrite (proj2 (forallb_forall _ _) HR') in E. rewrite H in E. injection E as ->. exact R.
  Qed.

  Lemma has_weights_iff (d : ds) : has_weights Row d = true <-> t_w _ d <> [].
  Proof. unfold has_weights. destruct (t_w Row d); cbn; split; congruence. Qed.

  Lemma select_mask_ok d m rw : consistent d -> length m = length (t_X _ d) ->
    exists r, select_mask Row row_ok d m rw = Ok r /\ consistent r /\ selection m d r rw.
  Proof.
    intros [Cy Cs Cw Ch Ci Cr] L. unfold select_mask. rewrite !np_select_ok by lia. cbn [bind].
    assert (W : (if has_weights Row d && rw then (r <- np_select m (t_w _ d) ;; Ok (Some r)) else Ok None) =
      Ok (if has_weights Row d && rw then Some (select m (t_w _ d)) else None)).
    { destruct (has_weights Row d && rw) eqn:E; [|reflexivity]. apply andb_true_iff in E as [E _]. apply has_weights_iff in E.
      destruct Cw as [Cw|Cw]; [congruence|]. now rewrite np_select_ok by lia. }
    rewrite W. cbn [bind].
    set (w' := if has_weights Row d && rw then Some (select m (t_w Row d)) else None).
    assert (GW : given_w w' = if rw then kept m (t_w _ d) else []).
    { unfold w'. destruct (has_weights Row d) eqn:E; cbn [andb].
      - destruct rw; [apply kept_select|reflexivity].
      - destruct (t_w Row d) eqn:E2; [rewrite kept_nil; now destruct rw|]. unfold has_weights in E. rewrite E2 in E. discriminate. }
    assert (NX : length (select m (t_X _ d)) = count m) by (apply select_length; auto).
    assert (NY : length (select m (t_y _ d)) = count m) by (apply select_length; lia).
    assert (NS : length (select m (t_sd _ d)) = count m) by (apply select_length; lia).
    assert (GY : given_y (length (select m (t_X _ d))) (Some (select m (t_y _ d))) = select m (t_y _ d)).
    { rewrite NX, <- NY. cbn. now destruct (select m (t_y Row d)). }
    assert (GS : given_sd (length (select m (t_X _ d))) (DomArr (select m (t_sd _ d))) = select m (t_sd _ d)).
    { rewrite NX, <- NS. cbn. now destruct (select m (t_sd Row d)). }
    destruct (dataset_ok (select m (t_X _ d)) (Some (select m (t_y _ d))) (DomArr (select m (t_sd _ d))) w') as (r & A & B & E1 & E2 & E3 & E4).
    - intros x Hx. apply Cr. now apply select_incl in Hx.
    - reflexivity.
    - rewrite GY. lia.
    - rewrite GS. lia.
    - rewrite GW. destruct rw; [|auto]. destruct Cw as [Cw|Cw]; [left; rewrite Cw; apply kept_nil|right]. rewrite <- kept_select, select_length; lia.
    - exists r. split; [exact A|]. split; [exact B|]. unfold selection. rewrite E1, E2, E3, E4, GY, GS, GW. rewrite !kept_select. auto.
  Qed.

  Lemma getitem_ok d i : consistent d -> i < length (t_X _ d) -> exists it, getitem Row d i = Ok it /\ item_at d i it.
  Proof.
    intros [Cy Cs Cw Ch Ci Cr] Hi. unfold getitem, at_.
    destruct (nth_error (t_X Row d) i) as [x|] eqn:EX; [|apply nth_error_None in EX; lia].
    destruct (nth_error (t_sd Row d) i) as [s|] eqn:ES; [|apply nth_error_None in ES; lia].
    destruct (nth_error (t_y Row d) i) as [y|] eqn:EY; [|apply nth_error_None in EY; lia].
    assert (EI : nth_error (t_idx Row d) i = Some (rank (t_sd Row d) i)).
    { rewrite Ci. rewrite nth_error_map. rewrite (nth_error_nth' _ 0) by now rewrite seq_length. rewrite seq_nth by auto. reflexivity. }
    rewrite EI. cbn [bind].
    assert (EW : (if has_weights Row d then (r <- match nth_error (t_w Row d) i with Some x0 => Ok x0 | None => Err IndexError end ;; Ok (Some r)) else Ok None)
      = Ok (nth_error (t_w Row d) i)).
    { destruct (has_weights Row d) eqn:E.
      - apply has_weights_iff in E. destruct Cw as [Cw|Cw]; [congruence|].
        destruct (nth_error (t_w Row d) i) eqn:Q; [reflexivity|]. apply nth_error_None in Q. lia.
      - unfold has_weights in E. destruct (t_w Row d); [|discriminate]. now destruct i. }
    rewrite EW. cbn [bind]. eexists. split; [reflexivity|]. unfold item_at. cbn. auto.
  Qed.
  Lemma getitem_out (d : ds) i : length (t_X _ d) <= i -> getitem Row d i = Err IndexError.
  Proof. intros H. unfold getitem, at_. apply nth_error_None in H. now rewrite H. Qed.

  Lemma items_from_spec d : consistent d -> forall fuel i, i + fuel = S (length (t_X _ d)) ->
    length (items_from Row fuel i d) = length (t_X _ d) - i /\
    forall j, i + j < length (t_X _ d) -> exists it, nth_error (items_from Row fuel i d) j = Some it /\ item_at d (i + j) it.
  Proof.
    intros C. induction fuel as [|f IH]; intros i H.
    - split; [cbn; lia|]. intros; lia.
    - cbn [items_from]. destruct (Nat.lt_ge_cases i (length (t_X Row d))) as [Hi|Hi].
      + destruct (getitem_ok d i C Hi) as (it & E & A). rewrite E. destruct (IH (S i) ltac:(lia)) as [L K]. split; [cbn; lia|].
        intros [|j] Hj.
        * exists it. rewrite Nat.add_0_r. auto.
        * destruct (K j ltac:(lia)) as (it' & E' & A'). exists it'. split; [exact E'|]. now replace (i + S j) with (S i + j) by lia.
      + rewrite getitem_out by auto. split; [cbn; lia|]. intros; lia.
  Qed.
  Lemma items_spec d : consistent d -> length (items Row d) = length (t_X _ d) /\
    forall j, j < length (t_X _ d) -> exists it, nth_error (items Row d) j = Some it /\ item_at d j it.
  Proof. intros C. destruct (items_from_spec d C (S (length (t_X _ d))) 0 eq_refl) as [L K]. unfold items. split; [lia|]. intros j Hj. apply K. lia. Qed.
  Lemma items_field {A} (f : item Row -> A) (g : list A) d : consistent d -> length g = length (t_X _ d) ->
    (forall i it, item_at d i it -> nth_error g i = Some (f it)) -> map f (items Row d) = g.
  Proof.
    intros C L H. destruct (items_spec d C) as [LI K]. apply list_ext_nth.
    - rewrite map_length. lia.
    - intros i Hi. rewrite map_length in Hi. destruct (K i ltac:(lia)) as (it & E & A1). rewrite nth_error_map, E. cbn. symmetry. now apply H.
  Qed.
  Lemma items_sd d : consistent d -> map (i_sd Row) (items Row d) = t_sd _ d.
  Proof. intros C. apply items_field; auto; [apply C|]. intros i it A. apply A. Qed.
  Lemma items_X d : consistent d -> map (i_X Row) (items Row d) = t_X _ d.
  Proof. intros C. apply items_field; auto. intros i it A. apply A. Qed.
  Lemma items_y d : consistent d -> map (i_y Row) (items Row d) = t_y _ d.
  Proof. intros C. apply items_field; auto; [apply C|]. intros i it A. apply A. Qed.
End DS.
