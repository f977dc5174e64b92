(** Proofs about the loaders of real data sets. *)
From Coq Require Import List ZArith Bool Arith Lia Reals Lra Permutation Sorted.
From Verif Require Import Np NpFacts GenModel FetchModel FetchSpec.
Import ListNotations.
Local Open Scope nat_scope.
Local Open Scope list_scope.

(** ** The cache *)
Section Cache.
  Context {File Data : Type}.

Lemma run_app (p q : list (action File)) d : run (p ++ q) d = run q (run p d).
Proof. apply fold_left_app. Qed.
Lemma run_extract (fs : list File) : forall d, run (map (Extract File) fs) d = mkDisk (k_dir d) (k_archive d) (k_nested d) (k_files d ++ fs).
Proof.
  induction fs as [|f fs IH]; intros d; [destruct d; cbn; rewrite app_nil_r; reflexivity|].
  change (run (map (Extract File) (f :: fs)) d) with (run (map (Extract File) fs) (act File d (Extract File f))). rewrite IH. cbn. rewrite <- app_assoc. reflexivity.
Qed.
Lemma run_nested (fs : list File) : forall d, run (map (ExtractNested File) fs) d = mkDisk (k_dir d) (k_archive d) (k_nested d ++ fs) (k_files d).
Proof.
  induction fs as [|f fs IH]; intros d; [destruct d; cbn; rewrite app_nil_r; reflexivity|].
  change (run (map (ExtractNested File) (f :: fs)) d) with (run (map (ExtractNested File) fs) (act File d (ExtractNested File f))). rewrite IH. cbn. rewrite <- app_assoc. reflexivity.
Qed.
Lemma run_moves n : forall d : disk File, run (repeat (Move File) n) d = mkDisk (k_dir d) (k_archive d) (skipn n (k_nested d)) (k_files d ++ firstn n (k_nested d)).
Proof.
  induction n as [|n IH]; intros d; [destruct d; cbn; rewrite app_nil_r; reflexivity|].
  change (run (repeat (Move File) (S n)) d) with (run (repeat (Move File) n) (act File d (Move File))). rewrite IH.
  destruct d as [a b [|f r] c]; cbn; [rewrite firstn_nil, skipn_nil; reflexivity|]. rewrite <- app_assoc. reflexivity.
Qed.
Lemma map_move (fs : list File) : map (fun _ => Move File) fs = repeat (Move File) (length fs).
Proof. induction fs; cbn; congruence. Qed.

Lemma office_run (fs : list File) : run (office_program fs) clean = mkDisk true false [] fs.
Proof. unfold office_program. rewrite !run_app, run_extract. reflexivity. Qed.
Lemma amazon_run (fs : list File) : run (amazon_program fs) clean = mkDisk true false [] fs.
Proof.
  unfold amazon_program. rewrite !run_app, map_move, run_nested, run_moves. cbn. rewrite firstn_all. reflexivity.
Qed.
Lemma firstn_map' {A B} (g : A -> B) n l : firstn n (map g l) = map g (firstn n l).
Proof. revert l. induction n as [|n IH]; intros [|x l]; cbn; [reflexivity..|]. f_equal. apply IH. Qed.
Lemma firstn_repeat' {A} (x : A) n m : firstn n (repeat x m) = repeat x (Nat.min n m).
Proof. revert m. induction n as [|n IH]; intros [|m]; cbn; [reflexivity..|]. f_equal. apply IH. Qed.

(** What an interrupted download leaves. *)
Lemma office_prefix (fs : list File) k : 1 <= k < length (office_program fs) ->
  k_dir (run (firstn k (office_program fs)) clean) = true /\ k_files (run (firstn k (office_program fs)) clean) = firstn (k - 2) fs.
Proof.
  unfold office_program. rewrite !app_length, map_length. cbn [length]. intros H. destruct k as [|[|k]]; [lia | split; reflexivity|].
  cbn [app firstn]. rewrite firstn_app, map_length, firstn_map'. replace (S (S k) - 2) with k by lia.
  assert (E : firstn (k - length fs) [RemoveArchive File] = []) by (replace (k - length fs) with 0 by lia; reflexivity). rewrite E, app_nil_r.
  change (MakeDir File :: Download File :: map (Extract File) (firstn k fs)) with ([MakeDir File; Download File] ++ map (Extract File) (firstn k fs)).
  rewrite run_app, run_extract. split; reflexivity.
Qed.
Lemma amazon_prefix (fs : list File) k : 1 <= k < length (amazon_program fs) ->
  k_dir (run (firstn k (amazon_program fs)) clean) = true /\ k_files (run (firstn k (amazon_program fs)) clean) = firstn (k - 2 - length fs) fs.
Proof.
  unfold amazon_program. rewrite !app_length, !map_length. cbn [length]. intros H. destruct k as [|[|k]]; [lia | split; [|rewrite firstn_O || idtac]; reflexivity|].
  cbn [app firstn]. replace (S (S k) - 2) with k by lia. rewrite map_move.
  rewrite firstn_app, map_length, firstn_map', firstn_app, repeat_length, firstn_repeat'.
  set (e := firstn (k - length fs - length fs) [RemoveNested File; RemoveArchive File]).
  change (MakeDir File :: Download File :: map (ExtractNested File) (firstn k fs) ++ repeat (Move File) (Nat.min (k - length fs) (length fs)) ++ e)
    with ([MakeDir File; Download File] ++ map (ExtractNested File) (firstn k fs) ++ repeat (Move File) (Nat.min (k - length fs) (length fs)) ++ e).
  rewrite !run_app, run_nested, run_moves. cbn [run fold_left act clean k_dir k_archive k_nested k_files app].
  assert (Q : firstn (Nat.min (k - length fs) (length fs)) (firstn k fs) = firstn (k - length fs) fs).
  { rewrite firstn_firstn. destruct (Nat.le_gt_cases (k - length fs) (length fs)) as [L|L].
    - rewrite (Nat.min_l (k - length fs)) by lia. rewrite Nat.min_l by lia. reflexivity.
    - rewrite (Nat.min_r (k - length fs)) by lia. destruct (Nat.le_gt_cases (length fs) k); [|lia]. rewrite Nat.min_l by lia. rewrite !firstn_all2 by lia. reflexivity. }
  rewrite Q. unfold e. destruct (k - length fs - length fs) as [|[|n]]; cbn; rewrite ?firstn_nil; split; reflexivity.
Qed.

Lemma calls_fixed (program : list (action File)) (load : list File -> Data + fexn) d cs : k_dir d = true ->
  calls program load d cs = (d, map (fun _ => load_outcome load (k_files d)) cs).
Proof.
  intros H. induction cs as [|c cs IH]; [reflexivity|]. cbn [calls]. unfold fetch. rewrite H, IH. reflexivity.
Qed.
End Cache.

(** ** Selections *)
Lemma selects_perm {A B} (P : A -> Prop) (g : A -> B) l b b' : selects P g l b -> Permutation b b' -> selects P g l b'.
Proof.
  intros H. revert b'. induction H as [|x l b1 b2 Px H IH|x l b Px H IH]; intros b' Q.
  - apply Permutation_nil in Q. subst. constructor.
  - assert (I : In (g x) b') by (eapply Permutation_in; [exact Q | apply in_or_app; right; left; reflexivity]).
    apply in_split in I. destruct I as (c1 & c2 & ->). apply Permutation_app_inv in Q. constructor; [exact Px | apply IH; exact Q].
  - apply sel_no; [exact Px | apply IH; exact Q].
Qed.
Lemma selects_filter {A B} (p : A -> bool) (P : A -> Prop) (g : A -> B) l : (forall x, In x l -> (p x = true <-> P x)) -> selects P g l (map g (filter p l)).
Proof.
  induction l as [|x l IH]; intros H; [constructor|]. cbn [filter]. assert (IH' := IH (fun y I => H y (or_intror I))). destruct (p x) eqn:E.
  - cbn [map]. apply (sel_yes P g x l [] _); [apply (H x (or_introl eq_refl)); exact E | exact IH'].
  - apply sel_no; [rewrite <- (H x (or_introl eq_refl)); congruence | exact IH'].
Qed.
Lemma filter_perm {A} (p : A -> bool) l l' : Permutation l l' -> Permutation (filter p l) (filter p l').
Proof.
  induction 1 as [| x a b H IH | x y a | a b c H1 IH1 H2 IH2]; cbn [filter]; [constructor | destruct (p x); [constructor|]; exact IH | | exact (Permutation_trans IH1 IH2)].
  destruct (p x), (p y); try apply Permutation_refl. apply perm_swap.
Qed.
Lemma filter_map' {A B} (g : A -> B) p l : filter p (map g l) = map g (filter (fun x => p (g x)) l).
Proof. induction l as [|x l IH]; [reflexivity|]. cbn [map filter]. destruct (p (g x)); cbn [map]; congruence. Qed.
Lemma take_rows_perm {A} (pm : nat -> list nat) (l : list A) : shuffling pm -> Permutation (take_rows (pm (length l)) l) l.
Proof.
  intros H. specialize (H (length l)).
  assert (E : take_rows (seq 0 (length l)) l = l).
  { unfold take_rows. assert (G : forall (s : list A) (k : nat) (pre : list A), length pre = k ->
      flat_map (fun i => match nth_error (pre ++ s) i with Some x => [x] | None => [] end) (seq k (length s)) = s).
    { induction s as [|x s IH]; intros k pre L; [reflexivity|]. cbn [length seq flat_map].
      rewrite nth_error_app2 by lia. rewrite L, Nat.sub_diag. cbn [nth_error]. cbn [app]. f_equal.
      replace (pre ++ x :: s) with ((pre ++ [x]) ++ s) by (rewrite <- app_assoc; reflexivity). apply IH. rewrite app_length. cbn. lia. }
    apply (G l 0 [] eq_refl). }
  apply Permutation_trans with (take_rows (seq 0 (length l)) l); [|rewrite E; apply Permutation_refl]. unfold take_rows. clear E.
  induction H as [| x a b H IH | x y a | a b c H1 IH1 H2 IH2]; cbn [flat_map]; [constructor | apply Permutation_app_head, IH | | exact (Permutation_trans IH1 IH2)].
  rewrite !app_assoc. apply Permutation_app_tail, Permutation_app_comm.
Qed.
Lemma take_rows_map {A B} (g : A -> B) idx l : take_rows idx (map g l) = map g (take_rows idx l).
Proof.
  unfold take_rows. induction idx as [|i idx IH]; [reflexivity|]. cbn [flat_map]. rewrite map_app, IH. f_equal. rewrite nth_error_map. destruct (nth_error l i); reflexivity.
Qed.

(** ** Office-31 *)
Section Office31.
  Variable Row : Type.
  Variable by_name : list (ofile Row) -> list (ofile Row).
  Hypothesis sorts : forall l, Permutation (by_name l) l.
  Variable perm : option (nat -> list nat).
  Hypothesis shuf : forall pm, perm = Some pm -> shuffling pm.
  Variable dim : nat.
  Variable caltech : list Z.

Lemma read_spec l X y : read Row dim l = inl (X, y) ->
  length X = length y /\ combine X y = map (fun p => (of_row Row (fst p), snd p)) (filter (fun p => of_match Row (fst p)) l) /\
  Forall (fun p => of_match Row (fst p) = true -> of_dim Row (fst p) = dim) l.
Proof.
  revert X y. induction l as [|[f k] l IH]; intros X y E; cbn [read] in E; [injection E as <- <-; repeat split; constructor|].
  cbn [filter fst]. destruct (of_match Row f) eqn:M.
  - destruct (Nat.eqb_spec (of_dim Row f) dim) as [D|D]; [|discriminate]. destruct (read Row dim l) as [[X' y']|]; [|discriminate]. injection E as <- <-.
    destruct (IH X' y' eq_refl) as (L & C & F). repeat split; [cbn; lia | cbn [combine map fst snd]; rewrite C; reflexivity | constructor; [intros _; exact D | exact F]].
  - destruct (IH X y E) as (L & C & F). repeat split; [exact L | exact C | constructor; [intros Q; cbn in Q; congruence | exact F]].
Qed.

Lemma names_sorted fs dom cats : StronglySorted Z.lt (folders Row fs dom cats).
Proof.
  unfold folders. pose proof (unique_sorted (map (of_cat Row) (filter (fun f => (of_dom Row f =? dom)%Z) fs))) as S1.
  induction S1 as [|a l S1 IH F]; cbn [filter]; [constructor|]. destruct (match cats with None => true | Some l0 => _ end); [|exact IH].
  constructor; [exact IH|]. rewrite Forall_forall in *. intros x I. apply filter_In in I. apply F, (proj1 I).
Qed.
Lemma names_in fs dom cats c : In c (folders Row fs dom cats) <-> (exists f, In f fs /\ of_dom Row f = dom /\ of_cat Row f = c) /\ match cats with None => True | Some l => In c l end.
Proof.
  unfold folders. rewrite filter_In, unique_In, in_map_iff.
  assert (B : (match cats with None => true | Some l => existsb (Z.eqb c) l end) = true <-> match cats with None => True | Some l => In c l end).
  { destruct cats as [l|]; [|tauto]. rewrite existsb_exists. split; [intros (x & I & E); apply Z.eqb_eq in E; subst; exact I | intros I; exists c; split; [exact I | apply Z.eqb_refl]]. }
  rewrite B. split; intros [(f & H) H2]; (split; [|exact H2]); exists f.
  - destruct H as [<- I]. apply filter_In in I. destruct I as [I E]. apply Z.eqb_eq in E. auto.
  - destruct H as (I & E & <-). split; [reflexivity|]. apply filter_In. split; [exact I | apply Z.eqb_eq; exact E].
Qed.

(** Every document of the domain in a known category, with the number of its category. *)
Lemma documents_perm fs dom names : NoDup names ->
  Permutation (map (fun p => (fst p, nth (snd p) names 0%Z)) (documents Row by_name fs dom names))
              (map (fun f => (f, of_cat Row f)) (filter (fun f => (of_dom Row f =? dom)%Z && existsb (Z.eqb (of_cat Row f)) names) fs)).
Proof.
  intros ND. unfold documents.
  assert (G : forall pre names', NoDup names' -> names = pre ++ names' ->
    Permutation (map (fun p => (fst p, nth (snd p) names 0%Z))
       (flat_map (fun lc => map (fun f => (f, fst lc)) (by_name (filter (fun f => (of_dom Row f =? dom)%Z && (of_cat Row f =? snd lc)%Z) fs))) (combine (seq (length pre) (length names')) names')))
      (map (fun f => (f, of_cat Row f)) (filter (fun f => (of_dom Row f =? dom)%Z && existsb (Z.eqb (of_cat Row f)) names') fs))).
  2: { apply (G [] names ND eq_refl). }
  intros pre names'. revert pre. induction names' as [|c names' IH]; intros pre N E.
  - cbn [length seq combine flat_map map existsb]. clear. induction fs as [|f fs IH]; [constructor|]. cbn [filter]. rewrite andb_false_r. exact IH.
  - inversion N as [|? ? Nc N']. subst. cbn [length seq combine flat_map]. rewrite map_app.
    specialize (IH (pre ++ [c]) N'). rewrite app_length in IH. cbn [length] in IH. rewrite Nat.add_1_r in IH. specialize (IH ltac:(rewrite <- app_assoc; reflexivity)).
    eapply Permutation_trans; [apply Permutation_app_head; exact IH|]. rewrite map_map. cbn [fst snd].
    rewrite app_nth2, Nat.sub_diag by lia. cbn [nth].
    eapply Permutation_trans; [apply Permutation_app_tail, Permutation_map, sorts|].
    clear - Nc. induction fs as [|f fs IH]; [constructor|]. cbn [filter existsb].
    destruct (of_dom Row f =? dom)%Z; cbn [andb]; [|exact IH].
    destruct (Z.eqb_spec (of_cat Row f) c) as [Ec|Ec]; cbn [orb].
    + assert (X : existsb (Z.eqb (of_cat Row f)) names' = false).
      { apply Bool.not_true_iff_false. intros X. apply existsb_exists in X. destruct X as (x & I & Q). apply Z.eqb_eq in Q. apply Nc. congruence. }
      rewrite X. cbn [map app]. rewrite <- Ec at 1. constructor. rewrite Ec in *. exact IH.
    + destruct (existsb (Z.eqb (of_cat Row f)) names'); [|exact IH]. cbn [map]. eapply Permutation_trans; [apply Permutation_sym, Permutation_middle|]. constructor. exact IH.
Qed.

Lemma documents_labels fs dom names : Forall (fun p => snd p < length names) (documents Row by_name fs dom names).
Proof.
  apply Forall_forall. intros [f k] I. unfold documents in I. apply in_flat_map in I. destruct I as ([j c] & Ij & If). apply in_map_iff in If.
  destruct If as (g & E & _). injection E as _ <-. apply in_combine_l in Ij. apply in_seq in Ij. cbn in *. lia.
Qed.
End Office31.
