(** Lemmas about selections, merging, prediction and losses. *)
From Coq Require Import String List ZArith QArith Bool Arith Lia Reals Lra Permutation Sorted.
From Verif Require Import Np NpFacts Labels RVec RVecFacts Spec SpecFacts UtilsProofs DeepModel DeepSpec DeepProofs DeepProofs2.
Import ListNotations.
Local Open Scope nat_scope.
Local Open Scope list_scope.

Lemma how_many_all {A} (p : A -> bool) l : (forall x, In x l -> p x = true) -> how_many p l = length l.
Proof. unfold how_many. induction l as [|a l IH]; intros H; [reflexivity|]. cbn. rewrite (H a) by (cbn; auto). cbn. rewrite IH; auto. intros; apply H; cbn; auto. Qed.
Lemma rank_app pre a l : rank (pre ++ a :: l) (length pre) = how_many (Z.eqb a) pre.
Proof.
  unfold rank. rewrite app_nth2, Nat.sub_diag by lia. cbn [nth]. rewrite firstn_app, Nat.sub_diag, firstn_all. cbn [firstn]. now rewrite app_nil_r.
Qed.
Lemma ranks_kept p : forall l pre,
  select (map p l) (map (fun i => rank (pre ++ l) (length pre + i)) (seq 0 (length l))) =
  map (fun j => rank (filter p (pre ++ l)) (length (filter p pre) + j)) (seq 0 (length (filter p l))).
Proof.
  induction l as [|a l IH]; intros pre; [reflexivity|].
  cbn [map length seq select filter]. rewrite <- seq_shift, map_map.
  assert (E : map (fun x => rank (pre ++ a :: l) (length pre + S x)) (seq 0 (length l)) = map (fun i => rank ((pre ++ [a]) ++ l) (length (pre ++ [a]) + i)) (seq 0 (length l))).
  { apply map_ext. intros i. rewrite <- app_assoc, app_length. cbn [app length]. f_equal. lia. }
  rewrite E, (IH (pre ++ [a])). rewrite <- app_assoc. cbn [app]. rewrite (filter_app _ pre [a]). cbn [filter]. destruct (p a) eqn:Pa.
  - cbn [length seq map]. rewrite <- seq_shift, map_map. f_equal.
    + rewrite !Nat.add_0_r, rank_app. rewrite filter_app. cbn [filter]. rewrite Pa, rank_app. unfold how_many.
      clear - Pa. induction pre as [|b pre IH]; [reflexivity|]. cbn. destruct (p b) eqn:Pb; cbn; destruct (Z.eqb_spec a b) as [->|]; cbn; auto. congruence.
    + apply map_ext. intros j. rewrite app_length. cbn [length]. f_equal. lia.
  - rewrite app_nil_r. reflexivity.
Qed.

Section DS3.
  Context {Row : Type}.
  Variable row_ok : Row -> bool.

  Lemma items_from_prefix (d : ds Row) k : (forall i, i < k -> exists it, getitem Row d i = Ok it) -> (exists e, getitem Row d k = Err e) ->
    forall fuel i, i <= k -> k < i + fuel -> length (items_from Row fuel i d) = k - i.
  Proof.
    intros H1 [e H2]. induction fuel as [|f IH]; intros i Hi HF; [lia|]. cbn [items_from]. destruct (Nat.eq_dec i k) as [->|N].
    - rewrite H2. cbn. lia.
    - destruct (H1 i ltac:(lia)) as [it E]. rewrite E. cbn [length]. rewrite IH by lia. lia.
  Qed.

  Lemma items_nil (d : ds Row) : consistent row_ok d -> items Row d = [] <-> t_X _ d = [].
  Proof.
    intros C. destruct (items_spec row_ok d C) as [L _]. split; intros E; rewrite E in L.
    - now destruct (t_X Row d).
    - now destruct (items Row d).
  Qed.

  Variable f : Row -> list R.
  Variable infer : list (item Row) -> list (list R).
  Hypothesis infer_rows : forall b, infer b = map (fun it => f (i_X _ it)) b.

  Lemma concat_infer (l : list (list (item Row))) : concat (map infer l) = map (fun it => f (i_X _ it)) (concat l).
  Proof. induction l as [|b l IH]; [reflexivity|]. cbn. now rewrite infer_rows, IH, map_app. Qed.

  Lemma predict_ds bs (d : ds Row) : 0 < bs -> consistent row_ok d ->
    (match chunks bs (items Row d) with [] => Err ValueError | b => Ok (concat (map infer b)) end) =
    if length (t_X _ d) =? 0 then Err ValueError else Ok (map f (t_X _ d)).
  Proof.
    intros Hb C. destruct (items_spec row_ok d C) as [L _]. destruct (chunks bs (items Row d)) as [|b bl] eqn:E.
    - apply chunks_nil_iff in E. rewrite E in L. cbn in L. now rewrite <- L.
    - assert (NE : items Row d <> []) by (intros Q; rewrite Q in E; discriminate).
      destruct (Nat.eqb_spec (length (t_X Row d)) 0) as [Z|_]; [rewrite Z in L; now destruct (items Row d)|].
      rewrite <- E, concat_infer, chunks_concat by auto. f_equal. rewrite <- (items_X row_ok d C) at 1. now rewrite map_map.
  Qed.

  Lemma selection_target (d r : ds Row) rw : selection (map is_target (t_sd _ d)) d r rw ->
    t_X _ r = rows_of is_target (t_sd _ d) (t_X _ d) /\ t_sd _ r = filter is_target (t_sd _ d).
  Proof. intros (A & _ & B & _). rewrite A, B, <- !kept_select, select_self, rows_of_select. auto. Qed.
End DS3.
