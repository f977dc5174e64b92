(** C227: which samples take part in the training of a deep net. *)
From Coq Require Import String List ZArith QArith Bool Arith Lia Reals Permutation.
From Verif Require Import Np NpFacts Labels RVec Spec SpecFacts DeepModel DeepSpec DeepProofs ThmDeep HoldModel.
Import ListNotations.
Local Open Scope string_scope.
Local Open Scope nat_scope.
Local Open Scope list_scope.

(** ** Specification *)
(** The number of samples of a side that occur in none of the batches of an epoch. *)
Definition left_out (side : Z -> bool) (sd : list Z) (batches : list (list nat)) : nat :=
  length (filter (fun i => negb (existsb (Nat.eqb i) (concat batches))) (positions side sd)).
(** [p] is reached from [p0] by one step on each of the batches, in order. *)
Fixpoint steps_along {P B} (step : P -> B -> res P) (p0 : P) (bs : list B) (p : P) : Prop :=
  match bs with [] => p = p0 | b :: bs' => exists q, step p0 b = Ok q /\ steps_along step q bs' p end.

(** ** Facts *)
Lemma filter_count_split {A} (f : A -> bool) l : length (filter f l) + length (filter (fun x => negb (f x)) l) = length l.
Proof. induction l as [|a l IH]; cbn; [reflexivity|]. destruct (f a); cbn; lia. Qed.
Lemma left_out_all side sd bs : (forall i, In i (positions side sd) -> In i (concat bs)) -> left_out side sd bs = 0.
Proof.
  intros H. unfold left_out. rewrite (proj2 (length_zero_iff_nil _)); auto. 
  destruct (filter _ _) as [|a l] eqn:E; auto. assert (I : In a (a :: l)) by (now left). rewrite <- E in I. apply filter_In in I as [I N]. apply H in I.
  apply negb_true_iff in N. rewrite <- not_true_iff_false in N. destruct N. apply existsb_exists. exists a. split; auto. apply Nat.eqb_refl.
Qed.
Lemma In_interleave {A} (x : A) : forall ps qs, length ps = length qs -> (In x (interleave ps qs) <-> In x ps \/ In x qs).
Proof.
  unfold interleave. induction ps as [|p ps IH]; intros [|q qs] L; try discriminate L; cbn; [tauto|].
  injection L as L. rewrite (IH qs L). tauto.
Qed.
Lemma uses_one_NoDup l : (forall i, In i l -> uses i l <= 1) -> NoDup l.
Proof.
  induction l as [|a l IH]; intros H; [constructor|]. assert (U : forall i, uses i (a :: l) = (if Nat.eqb i a then 1 else 0) + uses i l) by (intros i; unfold uses; cbn; destruct (Nat.eqb i a); reflexivity).
  constructor.
  - intros I. specialize (H a (or_introl eq_refl)). rewrite U, Nat.eqb_refl in H. assert (0 < uses a l); [|lia].
    unfold uses. assert (Q : In a (filter (Nat.eqb a) l)) by (apply filter_In; split; auto; apply Nat.eqb_refl). destruct (filter (Nat.eqb a) l); [easy|cbn; lia].
  - apply IH. intros i I. specialize (H i (or_intror I)). rewrite U in H. lia.
Qed.
Lemma uses_In i l : 0 < uses i l -> In i l.
Proof. unfold uses. intros H. destruct (filter (Nat.eqb i) l) as [|a r] eqn:E; [cbn in H; lia|]. assert (I : In a (filter (Nat.eqb i) l)) by (rewrite E; now left). apply filter_In in I as [I J]. apply Nat.eqb_eq in J. now subst. Qed.
(** A side of which [n] samples are drawn, evenly. *)
Lemma drawn_evenly side sd e ps n (N : 0 < how_many side sd) : length ps = n -> (forall i, In i ps -> In i (positions side sd)) ->
  (forall i, In i (positions side sd) -> n / how_many side sd <= uses i ps <= n / how_many side sd + 1) ->
  (forall i, In i (positions side sd) -> (In i (concat e) <-> In i ps)) -> left_out side sd e = how_many side sd - n.
Proof.
  intros L I U M. destruct (le_lt_dec (how_many side sd) n) as [G|G].
  - rewrite left_out_all; [lia|]. intros i Hi. apply M; auto. apply uses_In. specialize (U i Hi). assert (1 <= n / how_many side sd); [|lia]. apply Nat.div_le_lower_bound; lia.
  - assert (ND : NoDup ps). { apply uses_one_NoDup. intros i Hi. specialize (U i (I i Hi)). rewrite Nat.div_small in U by auto. lia. }
    pose proof (filter_count_split (fun i => existsb (Nat.eqb i) (concat e)) (positions side sd)) as S. rewrite positions_length in S.
    set (F := filter (fun i => existsb (Nat.eqb i) (concat e)) (positions side sd)) in *.
    assert (EF : forall i, In i F <-> In i ps).
    { intros i. unfold F. rewrite filter_In, existsb_exists. split.
      - intros (A & j & B & C). apply Nat.eqb_eq in C. subst j. now apply M.
      - intros A. split; [auto|]. exists i. split; [now apply M; auto|apply Nat.eqb_refl]. }
    assert (NF : NoDup F) by (apply NoDup_filter, positions_NoDup).
    assert (length F = n).
    { apply Nat.le_antisymm; rewrite <- L; apply NoDup_incl_length; auto; intros i; apply EF. }
    unfold left_out. set (G' := length (filter (fun i => negb _) _)) in *. lia.
Qed.
Lemma both_sides i sd : In i (positions is_source sd) -> In i (positions is_target sd) -> False.
Proof. intros A B. apply positions_In in A as (a & A & A'). apply positions_In in B as (b & B & B'). rewrite A in B. injection B as <-. unfold is_source, is_target in *. lia. Qed.

Section Thm.
Variable Row : Type.
Variable row_ok : Row -> bool.
Notation consistent := (consistent row_ok).

(** ** An epoch *)
(** With [n] draws of each side an epoch leaves out exactly the samples in excess of [n]. *)
Theorem C227_left_out (d : ds Row) bs mode pp pn : consistent d -> 0 < bs -> mode <> SOther ->
  let sd := t_sd _ d in let ns := how_many is_source sd in let nt := how_many is_target sd in
  0 < ns -> 0 < nt -> (forall k, Permutation (seq 0 ns) (pp k)) -> (forall k, Permutation (seq 0 nt) (pn k)) ->
  let n := match mode with SMax => Nat.max (bs * (ns / bs)) (bs * (nt / bs)) | SMin => Nat.min (bs * (ns / bs)) (bs * (nt / bs))
           | SSource => bs * (ns / bs) | _ => bs * (nt / bs) end in
  exists batches, balanced_batches Row d bs mode pp pn = Ok batches /\ left_out is_source sd batches = ns - n /\ left_out is_target sd batches = nt - n.
Proof.
  intros C Hb HM sd ns nt Hs Ht HP HQ n.
  destruct (C60_epoch row_ok d bs mode pp pn C Hb HM Hs Ht HP HQ) as (ps & qs & A & B & B' & D & D' & E & E').
  destruct (C60_batches row_ok d bs mode pp pn C Hb HM Hs Ht HP HQ) as (e & bl & A' & Q & CC & _). rewrite A in A'. injection A' as <-.
  exists bl. split; [exact Q|]. fold sd in D, D', E, E'.
  assert (I : forall i, In i (concat bl) <-> In i ps \/ In i qs). { intros i. rewrite CC. apply In_interleave. now rewrite B, B'. }
  split; [apply drawn_evenly with (ps := ps)|apply drawn_evenly with (ps := qs)]; auto.
  - intros i Hi. rewrite I. split; [|tauto]. intros [|Hq]; auto. destruct (both_sides i sd Hi). auto.
  - intros i Hi. rewrite I. split; [|tauto]. intros [Hq|]; auto. destruct (both_sides i sd); auto.
Qed.
(** By default: less than one batch of each side. *)
Theorem C227_default_epoch (d : ds Row) bs pp pn : consistent d -> 0 < bs ->
  let sd := t_sd _ d in let ns := how_many is_source sd in let nt := how_many is_target sd in
  0 < ns -> 0 < nt -> (forall k, Permutation (seq 0 ns) (pp k)) -> (forall k, Permutation (seq 0 nt) (pn k)) ->
  exists batches, balanced_batches Row d bs SMax pp pn = Ok batches /\ left_out is_source sd batches < bs /\ left_out is_target sd batches < bs /\
    (ns mod bs = 0 -> left_out is_source sd batches = 0) /\ (nt mod bs = 0 -> left_out is_target sd batches = 0).
Proof.
  intros C Hb sd ns nt Hs Ht HP HQ. destruct (C227_left_out d bs SMax pp pn C Hb ltac:(discriminate) Hs Ht HP HQ) as (bl & A & B & B'). exists bl. fold sd in B, B'. fold ns nt in B, B'.
  pose proof (Nat.div_mod ns bs ltac:(lia)). pose proof (Nat.div_mod nt bs ltac:(lia)). pose proof (Nat.mod_upper_bound ns bs ltac:(lia)). pose proof (Nat.mod_upper_bound nt bs ltac:(lia)).
  split; [exact A|]. rewrite B, B'. repeat split; try intros; lia.
Qed.
(** Loaders of one side. *)
Theorem C227_one_side (d : ds Row) bs (src : bool) perm : consistent d -> 0 < bs ->
  let sd := t_sd _ d in let side := if src then is_source else is_target in let n := how_many side sd in
  0 < n -> Permutation (seq 0 n) perm ->
  exists batches, only_batches Row d bs (Some src) perm = Ok batches /\ left_out side sd batches = n mod bs.
Proof.
  intros C Hb sd side n Hn HP. destruct (C61_batches row_ok d bs src perm C Hb Hn HP) as (e & bl & _ & A & CC & ND & I & L & F).
  exists bl. split; [exact A|]. fold sd side in I. fold sd side n in L.
  pose proof (filter_count_split (fun i => existsb (Nat.eqb i) (concat bl)) (positions side sd)) as S. rewrite positions_length in S. fold n in S.
  assert (LE : length e = n / bs * bs). { rewrite <- CC. rewrite <- L. clear -F. induction bl as [|b bl IH]; auto. cbn. rewrite app_length, IH by (intros; apply F; now right). rewrite (F b) by now left. reflexivity. }
  assert (length (filter (fun i => existsb (Nat.eqb i) (concat bl)) (positions side sd)) = length e).
  { assert (EF : forall i, In i (filter (fun i => existsb (Nat.eqb i) (concat bl)) (positions side sd)) <-> In i e).
    { intros i. rewrite filter_In, existsb_exists, CC. split.
      - intros (_ & j & B & D). apply Nat.eqb_eq in D. now subst.
      - intros B. split; [auto|]. exists i. split; [auto|apply Nat.eqb_refl]. }
    apply Nat.le_antisymm; apply NoDup_incl_length; auto; try (intros i; apply EF). apply NoDup_filter, positions_NoDup. }
  unfold left_out. pose proof (Nat.div_mod n bs ltac:(lia)). fold sd side n. lia.
Qed.

(** ** Training *)
Variable P : Type.
Variable step : P -> list (item Row) -> res P.
Variable evaluate : P -> list (item Row) -> res unit.
Notation deep_fit := (deep_fit Row row_ok P step evaluate).

Lemma fold_err {A B} (f : A -> B -> res A) l e : fold_left (fun r c => q <- r ;; f q c) l (Err e) = Err e.
Proof. induction l; cbn; auto. Qed.
Lemma fold_steps d b : forall p q, fold_left (fun r c => s <- r ;; train_on Row P step d s c) b (Ok p) = Ok q ->
  exists its, Forall2 (fun c it => mapM (at_ (items Row d)) c = Ok it) b its /\ steps_along step p its q.
Proof.
  induction b as [|c b IH]; intros p q H; cbn in H. { injection H as <-. exists []. split; [constructor|reflexivity]. }
  destruct (train_on Row P step d p c) as [s|e] eqn:E; cbn [bind] in H; [|now rewrite fold_err in H].
  unfold train_on, batch_items in E. apply bind_ok in E as (it & E1 & E2). destruct (IH s q H) as (its & F & T).
  exists (it :: its). split; [constructor; auto|]. exists s. auto.
Qed.
Lemma steps_app {B} (f : P -> B -> res P) l1 : forall l2 p q r, steps_along f p l1 q -> steps_along f q l2 r -> steps_along f p (l1 ++ l2) r.
Proof. induction l1 as [|a l1 IH]; intros l2 p q r H H2; cbn in *. { now subst. } destruct H as (s & E & H). exists s. split; auto. eapply IH; eauto. Qed.

(** Without a validation split every step of the training is a step on a batch of the given samples, and each epoch leaves out
    less than one batch of each side. *)
Theorem C227_trains_on_all x y sda w d bs pp pn epochs p0 p : prepare_input Row row_ok x y sda w = Ok d -> consistent d -> 0 < bs ->
  let sd := t_sd _ d in let ns := how_many is_source sd in let nt := how_many is_target sd in
  0 < ns -> 0 < nt -> (forall e k, Permutation (seq 0 ns) (pp e k)) -> (forall e k, Permutation (seq 0 nt) (pn e k)) ->
  deep_fit NoSplit x y sda w bs SMax pp pn epochs p0 = Ok p ->
  exists epoch_batches epoch_items, length epoch_batches = epochs /\
    Forall2 (Forall2 (fun b its => mapM (at_ (items Row d)) b = Ok its)) epoch_batches epoch_items /\ steps_along step p0 (concat epoch_items) p /\
    Forall (fun batches => left_out is_source sd batches < bs /\ left_out is_target sd batches < bs) epoch_batches.
Proof.
  intros HI C Hb sd ns nt Hs Ht HP HQ H. unfold deep_fit in H. rewrite HI in H. cbn [bind get_split_datasets fst snd] in H.
  assert (G : forall k s p0 p, fold_left (one_epoch Row P step evaluate d None bs SMax pp pn) (seq s k) (Ok p0) = Ok p ->
    exists ebs eis, length ebs = k /\ Forall2 (Forall2 (fun b its => mapM (at_ (items Row d)) b = Ok its)) ebs eis /\ steps_along step p0 (concat eis) p /\
      Forall (fun batches => left_out is_source sd batches < bs /\ left_out is_target sd batches < bs) ebs); [|exact (G epochs 0 p0 p H)].
  clear H p0 p. induction k as [|k IH]; intros s p0 p H; cbn [seq fold_left] in H.
  { injection H as <-. exists [], []. repeat split; constructor. }
  destruct (one_epoch Row P step evaluate d None bs SMax pp pn (Ok p0) s) as [q|e] eqn:E.
  2:{ exfalso. clear -H. revert H. generalize (seq (S s) k). intros l. induction l as [|a l IHl]; cbn; [discriminate|exact IHl]. }
  destruct (IH _ _ _ H) as (ebs & eis & L & F & T & A). unfold one_epoch in E. cbn [bind valid_epoch] in E. apply bind_ok in E as (q' & E & E'). injection E' as ->.
  unfold train_epoch in E. apply bind_ok in E as (bl & E1 & E2). destruct (fold_steps d bl p0 q E2) as (its & F1 & T1).
  destruct (C227_default_epoch d bs (pp s) (pn s) C Hb Hs Ht (HP s) (HQ s)) as (bl' & Q & Q1 & Q2 & _). rewrite E1 in Q. injection Q as <-.
  exists (bl :: ebs), (its :: eis). split; [cbn; now rewrite L|]. split; [constructor; auto|]. split; [cbn; eapply steps_app; eauto|]. constructor; auto.
Qed.
(** A validation set given apart has no influence on the parameters. *)
Theorem C227_validation_apart v x y sda w bs mode pp pn epochs p0 p :
  deep_fit (predefined_split Row v) x y sda w bs mode pp pn epochs p0 = Ok p -> deep_fit NoSplit x y sda w bs mode pp pn epochs p0 = Ok p.
Proof.
  unfold deep_fit. destruct (prepare_input Row row_ok x y sda w) as [d|e]; cbn [bind]; [|discriminate]. cbn [get_split_datasets predefined_split forallb andb bind fst snd].
  generalize 0 as s. revert p0. induction epochs as [|k IH]; intros p0 s H; cbn [seq fold_left] in *; [exact H|].
  unfold one_epoch at 2 in H. unfold one_epoch at 2. cbn [bind] in *. destruct (train_epoch Row P step d bs mode (pp s) (pn s) p0) as [q|e]; cbn [bind] in *.
  - cbn [valid_epoch] in *. destruct (fold_left _ (chunks bs (items Row v)) (Ok tt)) as [u|e]; cbn [bind] in *; [now apply IH|].
    exfalso. revert H. generalize (seq (S s) k). intros l. induction l as [|a l IHl]; cbn; [discriminate|exact IHl].
  - exfalso. revert H. generalize (seq (S s) k). intros l. induction l as [|a l IHl]; cbn; [discriminate|exact IHl].
Qed.
(** With the default train_split, and with every ValidSplit, no data set can be fitted. *)
Theorem C227_default_split_refuted cut x y sda w bs mode pp pn epochs p0 : forall p, deep_fit (default_split Row cut) x y sda w bs mode pp pn epochs p0 <> Ok p.
Proof. intros p. unfold deep_fit. destruct (prepare_input Row row_ok x y sda w); cbn; discriminate. Qed.
Theorem C227_valid_split_refuted stratified cut x y sda w d bs mode pp pn epochs p0 : prepare_input Row row_ok x y sda w = Ok d ->
  deep_fit (valid_split Row stratified cut) x y sda w bs mode pp pn epochs p0 = Err TypeError.
Proof. intros H. unfold deep_fit. now rewrite H. Qed.
End Thm.

(** ** The hypotheses are met *)
(** Three sources and two targets, batches of two: one source is left out; two epochs are trained, the parameter counting the samples. *)
Example C227_ex : prepare_input nat ex_ok (InDs _ ex_d) None (DomNone) None = Ok ex_d /\
  deep_fit nat ex_ok nat (fun p b => Ok (p + length b)) (fun _ _ => Ok tt) NoSplit (InDs _ ex_d) None DomNone None 2 SMax (fun _ _ => [2; 0; 1]) (fun _ _ => [1; 0]) 2 0 = Ok 8 /\
  balanced_batches nat ex_d 2 SMax (fun _ => [2; 0; 1]) (fun _ => [1; 0]) = Ok [[3; 4; 0; 2]] /\
  left_out is_source (t_sd _ ex_d) [[3; 4; 0; 2]] = 1 /\ left_out is_target (t_sd _ ex_d) [[3; 4; 0; 2]] = 0 /\
  deep_fit nat ex_ok nat (fun p b => Ok (p + length b)) (fun _ _ => Ok tt) (predefined_split _ ex_d) (InDs _ ex_d) None DomNone None 2 SMax (fun _ _ => [2; 0; 1]) (fun _ _ => [1; 0]) 2 0 = Ok 8 /\
  deep_fit nat ex_ok nat (fun p b => Ok (p + length b)) (fun _ _ => Ok tt) (default_split _ (fun d => Ok (d, d))) (InDs _ ex_d) None DomNone None 2 SMax (fun _ _ => [2; 0; 1]) (fun _ _ => [1; 0]) 2 0 = Err TypeError.
Proof. repeat split. Qed.
