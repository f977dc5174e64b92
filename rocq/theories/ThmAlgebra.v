(** Theorems C237: merges and selections of deep data sets can be done in any order. *)
From Coq Require Import String List ZArith QArith Bool Arith Lia Reals.
From Verif Require Import Np NpFacts Labels Spec SpecFacts DeepModel DeepSpec DeepProofs ThmDeep.
Import ListNotations.
Local Open Scope nat_scope.
Local Open Scope list_scope.

(** The selections of a dataset. *)
Inductive which := Sources | Targets | Domain (k : Z) | Labelled.
Definition pick {Row} row_ok (s : which) (d : ds Row) (weights : bool) : res (ds Row) :=
  match s with
  | Sources => select_source Row row_ok d weights | Targets => select_target Row row_ok d weights
  | Domain k => select_domain Row row_ok d k weights | Labelled => select_with_labels Row row_ok d weights
  end.

Section Algebra.
  Context {Row : Type} (row_ok : Row -> bool).
  Notation consistent := (consistent row_ok).
  Notation pick := (pick row_ok).

(** A sample is chosen by its label and its domain. *)
Definition chosen (s : which) (vd : val * Z) : bool :=
  match s with
  | Sources => is_source (snd vd) | Targets => is_target (snd vd) | Domain k => (snd vd =? k)%Z
  | Labelled => negb (val_eqb_q (fst vd) (inject_Z (-1)))
  end.
Definition chosen_mask s (d : ds Row) : list bool := map (chosen s) (combine (t_y _ d) (t_sd _ d)).
Lemma map_snd_combine {A B C} (f : B -> C) : forall (l : list A) (l' : list B), length l = length l' -> map (fun p => f (snd p)) (combine l l') = map f l'.
Proof. induction l; destruct l'; cbn; intros; try lia; auto. f_equal. auto. Qed.
Lemma map_fst_combine {A B C} (f : A -> C) : forall (l : list A) (l' : list B), length l = length l' -> map (fun p => f (fst p)) (combine l l') = map f l.
Proof. induction l; destruct l'; cbn; intros; try lia; auto. f_equal. auto. Qed.

Lemma pick_ok s d rw : consistent d -> exists r, pick s d rw = Ok r /\ consistent r /\ selection (chosen_mask s d) d r rw.
Proof.
  intros C. pose proof (c_y _ _ C) as Ly. pose proof (c_sd _ _ C) as Ls. assert (L : length (t_y _ d) = length (t_sd _ d)) by congruence.
  destruct s; unfold chosen_mask, chosen; rewrite ?(map_snd_combine is_source), ?(map_snd_combine is_target), ?(map_snd_combine (fun s => (s =? k)%Z)), ?(map_fst_combine (fun v => negb (val_eqb_q v (inject_Z (-1))))) by exact L.
  - now apply C62_select_source.
  - now apply C62_select_target.
  - now apply C62_select_domain.
  - now apply C62_select_with_labels.
Qed.
Lemma chosen_mask_length s d : consistent d -> length (chosen_mask s d) = length (t_X _ d).
Proof. intros C. unfold chosen_mask. rewrite map_length, combine_length, (c_y _ _ C), (c_sd _ _ C). lia. Qed.

(** A consistent dataset is determined by its samples, labels, domains and weights. *)
Lemma same_tensors a b : consistent a -> consistent b -> t_X _ a = t_X _ b -> t_y _ a = t_y _ b -> t_sd _ a = t_sd _ b -> t_w _ a = t_w _ b -> a = b.
Proof.
  intros [A1 A2 A3 A4 A5 A6] [B1 B2 B3 B4 B5 B6] EX Ey Es Ew. destruct a as [Xa ya sa wa ha ia], b as [Xb yb sb wb hb ib]. cbn in *. subst. reflexivity.
Qed.

(** The weights of the datasets can be put together: all have weights or none has. *)
Definition weights_agree (kw : bool) (l : list (ds Row)) : Prop :=
  kw = true -> (forall d, In d l -> t_w _ d = []) \/ (forall d, In d l -> length (t_w _ d) = length (t_X _ d)).

Lemma merge_ok a b kw : consistent a -> consistent b -> weights_agree kw [a; b] ->
  exists d, merge Row row_ok a b kw = Ok d /\ consistent d /\ t_X _ d = t_X _ a ++ t_X _ b /\ t_y _ d = t_y _ a ++ t_y _ b /\
    t_sd _ d = t_sd _ a ++ t_sd _ b /\ t_w _ d = if kw then t_w _ a ++ t_w _ b else [].
Proof.
  intros Ca Cb W. apply C62_merge; auto. intros ->. destruct (W eq_refl) as [H|H]; [left|right]; split; apply H; cbn; auto.
Qed.

Theorem C237_merge_associative : forall a b c kw, consistent a -> consistent b -> consistent c -> weights_agree kw [a; b; c] ->
  exists ab bc r, merge Row row_ok a b kw = Ok ab /\ merge Row row_ok b c kw = Ok bc /\ merge Row row_ok ab c kw = Ok r /\ merge Row row_ok a bc kw = Ok r.
Proof.
  intros a b c kw Ca Cb Cc W.
  destruct (merge_ok a b kw Ca Cb) as (ab & E1 & C1 & X1 & Y1 & S1 & W1). { intros K. destruct (W K) as [H|H]; [left|right]; intros d Hd; apply H; cbn in *; tauto. }
  destruct (merge_ok b c kw Cb Cc) as (bc & E2 & C2 & X2 & Y2 & S2 & W2). { intros K. destruct (W K) as [H|H]; [left|right]; intros d Hd; apply H; cbn in *; tauto. }
  destruct (merge_ok ab c kw C1 Cc) as (r1 & E3 & C3 & X3 & Y3 & S3 & W3).
  { intros K. destruct (W K) as [H|H]; [left|right]; intros d [<-|[<-|[]]]; try (apply H; cbn; tauto).
    - rewrite W1, K, (H a), (H b) by (cbn; tauto). reflexivity.
    - rewrite W1, K, X1, !app_length, (H a), (H b) by (cbn; tauto). reflexivity. }
  destruct (merge_ok a bc kw Ca C2) as (r2 & E4 & C4 & X4 & Y4 & S4 & W4).
  { intros K. destruct (W K) as [H|H]; [left|right]; intros d [<-|[<-|[]]]; try (apply H; cbn; tauto).
    - rewrite W2, K, (H b), (H c) by (cbn; tauto). reflexivity.
    - rewrite W2, K, X2, !app_length, (H b), (H c) by (cbn; tauto). reflexivity. }
  assert (r2 = r1) as ->.
  { apply same_tensors; auto; rewrite ?X4, ?X3, ?Y4, ?Y3, ?S4, ?S3, ?W4, ?W3, ?X1, ?X2, ?Y1, ?Y2, ?S1, ?S2, ?W1, ?W2; destruct kw; rewrite ?app_assoc; reflexivity. }
  exists ab, bc, r1. auto.
Qed.

Lemma kept_app {A} m1 m2 (x1 x2 : list A) : length m1 = length x1 -> kept (m1 ++ m2) (x1 ++ x2) = kept m1 x1 ++ kept m2 x2.
Proof. intros L. rewrite <- !kept_select. now apply select_app. Qed.
Lemma kept_length {A} m (xs : list A) : length m = length xs -> length (kept m xs) = count m.
Proof. intros L. rewrite <- kept_select. now apply select_length. Qed.
Lemma combine_app {A B} : forall (a1 a2 : list A) (b1 b2 : list B), length a1 = length b1 -> combine (a1 ++ a2) (b1 ++ b2) = combine a1 b1 ++ combine a2 b2.
Proof. induction a1; destruct b1; cbn; intros; try lia; auto. f_equal. auto. Qed.

(** What is kept of the weights: nothing, or one weight per sample kept. *)
Lemma picked_weights s d r : consistent d -> selection (chosen_mask s d) d r true ->
  (t_w _ d = [] -> t_w _ r = []) /\ (length (t_w _ d) = length (t_X _ d) -> length (t_w _ r) = length (t_X _ r)).
Proof.
  intros C (HX & _ & _ & HW). rewrite HW, HX. split; intros E.
  - rewrite E. apply kept_nil.
  - rewrite !kept_length; auto; rewrite ?E; now apply chosen_mask_length.
Qed.

Theorem C237_select_of_merge : forall s a b kw, consistent a -> consistent b -> weights_agree kw [a; b] ->
  exists m sa sb r, merge Row row_ok a b kw = Ok m /\ pick s a true = Ok sa /\ pick s b true = Ok sb /\ pick s m true = Ok r /\ merge Row row_ok sa sb kw = Ok r.
Proof.
  intros s a b kw Ca Cb W. destruct (merge_ok a b kw Ca Cb W) as (m & E1 & C1 & X1 & Y1 & S1 & W1).
  destruct (pick_ok s a true Ca) as (sa & E2 & C2 & P2). destruct (pick_ok s b true Cb) as (sb & E3 & C3 & P3). destruct (pick_ok s m true C1) as (r & E4 & C4 & P4).
  destruct (merge_ok sa sb kw C2 C3) as (r2 & E5 & C5 & X5 & Y5 & S5 & W5).
  { intros K. destruct (W K) as [H|H]; [left|right]; intros d [<-|[<-|[]]].
    - apply (picked_weights s a sa Ca P2). apply H; cbn; auto.
    - apply (picked_weights s b sb Cb P3). apply H; cbn; auto.
    - apply (picked_weights s a sa Ca P2). apply H; cbn; auto.
    - apply (picked_weights s b sb Cb P3). apply H; cbn; auto. }
  assert (r2 = r) as ->; [|exists m, sa, sb, r; auto].
  assert (M : chosen_mask s m = chosen_mask s a ++ chosen_mask s b).
  { unfold chosen_mask. rewrite Y1, S1, combine_app, map_app; auto. now rewrite (c_y _ _ Ca), (c_sd _ _ Ca). }
  destruct P2 as (A1 & A2 & A3 & A4), P3 as (B1 & B2 & B3 & B4), P4 as (D1 & D2 & D3 & D4). pose proof (chosen_mask_length s a Ca) as L.
  apply same_tensors; auto.
  - rewrite X5, A1, B1, D1, M, X1. symmetry. now apply kept_app.
  - rewrite Y5, A2, B2, D2, M, Y1. symmetry. apply kept_app. now rewrite (c_y _ _ Ca).
  - rewrite S5, A3, B3, D3, M, S1. symmetry. apply kept_app. now rewrite (c_sd _ _ Ca).
  - rewrite W5, A4, B4, D4, M, W1. destruct kw; [|now rewrite kept_nil].
    destruct (W eq_refl) as [H|H].
    + rewrite (H a), (H b) by (cbn; auto). cbn [app]. rewrite !kept_nil. reflexivity.
    + symmetry. apply kept_app. rewrite (H a) by (cbn; auto). exact L.
Qed.

Lemma select_twice {A B} (p q : B -> bool) : forall (bs : list B) (xs : list A), length bs = length xs ->
  select (map q (select (map p bs) bs)) (select (map p bs) xs) = select (map (fun b => p b && q b) bs) xs.
Proof.
  induction bs as [|b bs IH]; destruct xs as [|x xs]; cbn; intros L; try lia; auto. destruct (p b); cbn; [|apply IH; lia].
  destruct (q b); rewrite IH by lia; reflexivity.
Qed.
Lemma pick_twice s t d r1 r (rw : bool) : consistent d -> consistent r1 -> selection (chosen_mask s d) d r1 rw -> selection (chosen_mask t r1) r1 r rw ->
  selection (map (fun vd => chosen s vd && chosen t vd) (combine (t_y _ d) (t_sd _ d))) d r rw.
Proof.
  intros C C1 (A1 & A2 & A3 & A4) (B1 & B2 & B3 & B4).
  assert (K : combine (t_y _ r1) (t_sd _ r1) = select (chosen_mask s d) (combine (t_y _ d) (t_sd _ d))).
  { rewrite A2, A3, <- !kept_select. symmetry. apply select_combine; rewrite ?(chosen_mask_length s d C), ?(c_y _ _ C), ?(c_sd _ _ C); reflexivity. }
  assert (LL : length (combine (t_y _ d) (t_sd _ d)) = length (t_X _ d)) by (rewrite combine_length, (c_y _ _ C), (c_sd _ _ C); lia).
  assert (Q : forall A (xs : list A), length xs = length (t_X _ d) ->
     kept (chosen_mask t r1) (kept (chosen_mask s d) xs) = kept (map (fun vd => chosen s vd && chosen t vd) (combine (t_y _ d) (t_sd _ d))) xs).
  { intros A xs L. unfold chosen_mask at 1. rewrite K, <- !kept_select. unfold chosen_mask. apply select_twice. now rewrite LL, L. }
  split; [|split; [|split]].
  - rewrite B1, A1. now apply Q.
  - rewrite B2, A2. apply Q. apply (c_y _ _ C).
  - rewrite B3, A3. apply Q. apply (c_sd _ _ C).
  - rewrite B4, A4. destruct rw; [|reflexivity]. destruct (c_w _ _ C) as [E|E]; [rewrite E, !kept_nil; reflexivity|now apply Q].
Qed.
Lemma same_selection m d r1 r2 rw : consistent r1 -> consistent r2 -> selection m d r1 rw -> selection m d r2 rw -> r1 = r2.
Proof. intros C1 C2 (A1 & A2 & A3 & A4) (B1 & B2 & B3 & B4). apply same_tensors; congruence. Qed.

Theorem C237_selections_commute : forall s t d rw, consistent d ->
  exists ds dt r, pick s d rw = Ok ds /\ pick t d rw = Ok dt /\ pick t ds rw = Ok r /\ pick s dt rw = Ok r.
Proof.
  intros s t d rw C. destruct (pick_ok s d rw C) as (x & E1 & C1 & P1). destruct (pick_ok t d rw C) as (y & E2 & C2 & P2).
  destruct (pick_ok t x rw C1) as (r & E3 & C3 & P3). destruct (pick_ok s y rw C2) as (r' & E4 & C4 & P4).
  pose proof (pick_twice s t d x r rw C C1 P1 P3) as Q1. pose proof (pick_twice t s d y r' rw C C2 P2 P4) as Q2.
  rewrite (map_ext _ (fun vd => chosen s vd && chosen t vd)) in Q2 by (intros; apply andb_comm).
  rewrite <- (same_selection _ _ _ _ _ C3 C4 Q1 Q2) in E4. exists x, y, r. auto.
Qed.

(** A selection contained in another one: [t] of [s] is [t]; in particular a selection done twice is done once. *)
Definition inside (t s : which) : Prop :=
  match t, s with
  | Domain k, Sources => is_source k = true
  | Domain k, Targets => is_target k = true
  | _, _ => t = s
  end.
Theorem C237_selection_inside : forall t s d rw, consistent d -> inside t s ->
  exists ds r, pick s d rw = Ok ds /\ pick t ds rw = Ok r /\ pick t d rw = Ok r.
Proof.
  intros t s d rw C I. destruct (pick_ok s d rw C) as (x & E1 & C1 & P1). destruct (pick_ok t x rw C1) as (r & E2 & C2 & P2). destruct (pick_ok t d rw C) as (r' & E3 & C3 & P3).
  pose proof (pick_twice s t d x r rw C C1 P1 P2) as Q.
  assert (S : forall vd, chosen s vd && chosen t vd = chosen t vd).
  { intros [v z]. destruct t, s; cbn in I; try discriminate I; try (injection I as ->); cbn [chosen fst snd]; rewrite ?andb_diag; auto.
    - destruct (Z.eqb_spec z k) as [->|]; [now rewrite I|apply andb_false_r].
    - destruct (Z.eqb_spec z k) as [->|]; [now rewrite I|apply andb_false_r]. }
  rewrite (map_ext _ _ S) in Q. rewrite <- (same_selection _ _ _ _ _ C2 C3 Q P3) in E3. exists x, r. auto.
Qed.
(** Nothing is at once source and target, or in two domains. *)
Theorem C237_selections_disjoint : forall s t d rw, consistent d ->
  match s, t with Sources, Targets | Targets, Sources => True | Domain k, Domain l => k <> l | _, _ => False end ->
  exists ds r, pick s d rw = Ok ds /\ pick t ds rw = Ok r /\ t_X _ r = [] /\ t_w _ r = [].
Proof.
  intros s t d rw C I. destruct (pick_ok s d rw C) as (x & E1 & C1 & P1). destruct (pick_ok t x rw C1) as (r & E2 & C2 & P2).
  pose proof (pick_twice s t d x r rw C C1 P1 P2) as Q.
  assert (S : forall vd, chosen s vd && chosen t vd = false).
  { intros [v z]. destruct s, t; try contradiction; cbn [chosen snd]; unfold is_source, is_target.
    - destruct (Z.leb_spec 0 z), (Z.ltb_spec z 0); auto; lia.
    - destruct (Z.leb_spec 0 z), (Z.ltb_spec z 0); auto; lia.
    - destruct (Z.eqb_spec z k), (Z.eqb_spec z k0); auto; lia. }
  rewrite (map_ext _ _ S) in Q. assert (N : forall A B (l : list B) (xs : list A), kept (map (fun _ => false) l) xs = []).
  { intros A B l. induction l as [|b l IH]; intros [|a xs]; auto. exact (IH xs). }
  destruct Q as (Q1 & _ & _ & Q4). exists x, r. split; [exact E1|]. split; [exact E2|]. split; [now rewrite Q1, N|]. rewrite Q4. destruct rw; [apply N|reflexivity].
Qed.
End Algebra.

(** Two datasets with weights. *)
Definition alg_a : ds nat := mkDs nat [10; 11; 12] [VNum 0; VNum (inject_Z (-1)); VNum 1] [1; -2; 1]%Z [1; 2; 3]%R [true; false; true] [0; 0; 1].
Definition alg_b : ds nat := mkDs nat [20; 21] [VNum 5; VNum 6] [-2; 3]%Z [4; 5]%R [true; true] [0; 0].
Example C237_ex : consistent (fun _ => true) alg_a /\ consistent (fun _ => true) alg_b /\ weights_agree true [alg_a; alg_b] /\
  (exists m r, merge nat (fun _ => true) alg_a alg_b true = Ok m /\ pick (fun _ => true) Targets m true = Ok r /\
     t_X _ r = [11; 20] /\ t_w _ r = [2; 4]%R /\ t_idx _ r = [0; 1]) /\
  (exists s r, pick (fun _ => true) Targets alg_a true = Ok s /\ pick (fun _ => true) Labelled s true = Ok r /\ t_X _ s = [11] /\ t_X _ r = []) /\
  (exists m r, merge nat (fun _ => true) alg_a alg_b true = Ok m /\ pick (fun _ => true) Sources m true = Ok r /\ inside (Domain 3) Sources /\ t_X _ r = [10; 12; 21]).
Proof.
  split; [constructor; cbn; auto|]. split; [constructor; cbn; auto|]. split; [intros _; right; intros d [<-|[<-|[]]]; reflexivity|].
  split; [do 2 eexists; repeat split|]. split; do 2 eexists; repeat split.
Qed.
