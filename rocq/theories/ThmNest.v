(** C229: parameters of nested estimators are read and set by their path. *)
From Coq Require Import String List Bool Arith Lia.
From Verif Require Import Np NpFacts NestModel.
Import ListNotations.
Local Open Scope string_scope.
Local Open Scope list_scope.

Section Nested.
Variable V : Type.
Notation obj := (obj V).

(** ** Specification *)
(** [at_path o p y]: following the names [p] from [o], through selectors, leads to [y]. *)
Inductive at_path : obj -> list string -> obj -> Prop :=
| AtHere o : at_path o [] o
| AtParameter l k x p y : dict_get String.eqb k l = Some x -> at_path x p y -> at_path (Est l) (k :: p) y
| AtStep l k x p y : dict_get String.eqb k l = Some x -> at_path x p y -> at_path (Pipe l) (k :: p) y
| AtWrapped b k p y : at_path b (k :: p) y -> at_path (Sel b) (k :: p) y.
(** The path names base_estimator of a selector. *)
Definition names_wrapped (o : obj) (p : list string) : Prop := exists q b, p = q ++ ["base_estimator"] /\ at_path o q (Sel b).
Definition apart (p q : list string) : Prop := forall r, p <> q ++ r /\ q <> p ++ r.

(** ** The path as a function *)
Definition members (o : obj) : list (string * obj) := match inner o with Est l | Pipe l => l | _ => [] end.
Fixpoint walk (o : obj) (p : list string) : option obj :=
  match p with [] => Some o | k :: r => match dict_get String.eqb k (members o) with None => None | Some x => walk x r end end.
Lemma walk_iff : forall p o y, at_path o p y <-> walk o p = Some y.
Proof.
  induction p as [|k p IH]; intros o y.
  - cbn. split; [intros H; inversion H; reflexivity|intros [= ->]; constructor].
  - cbn [walk]. induction o as [v| |l|b IHb|l]; cbn.
    + split; [intros H; inversion H|discriminate].
    + split; [intros H; inversion H|discriminate].
    + unfold members; cbn. split.
      * intros H. inversion H as [|? ? x ? ? D A| |]; subst. rewrite D. now apply IH.
      * destruct (dict_get String.eqb k l) as [x|] eqn:D; [|discriminate]. intros W. econstructor; [exact D|]. now apply IH.
    + unfold members in *. cbn [inner]. rewrite <- IHb. split; [intros H; now inversion H|now constructor].
    + unfold members; cbn. split.
      * intros H. inversion H as [| |? ? x ? ? D A|]; subst. rewrite D. now apply IH.
      * destruct (dict_get String.eqb k l) as [x|] eqn:D; [|discriminate]. intros W. econstructor; [exact D|]. now apply IH.
Qed.
Lemma names_cons o k r x : dict_get String.eqb k (members o) = Some x -> names_wrapped x r -> names_wrapped o (k :: r).
Proof. intros D (q & b & -> & A). exists (k :: q), b. split; [reflexivity|]. apply walk_iff. cbn. rewrite D. now apply walk_iff. Qed.
Lemma get_walk : forall p o, p <> [] -> ~ names_wrapped o p -> get o p = walk o p.
Proof.
  induction p as [|k p IH]; intros o NE N; [congruence|]. clear NE.
  assert (S : forall x, dict_get String.eqb k (members o) = Some x -> (match p with [] => Some x | _ => get x p end) = walk x p).
  { intros x D. destruct p as [|k' p]; [reflexivity|]. apply IH; [discriminate|]. intros Q. apply N. eapply names_cons; eauto. }
  cbn [get walk]. destruct o as [v| |l|b|l]; try reflexivity; unfold members in *; cbn [inner] in *.
  - destruct (dict_get String.eqb k l) as [x|] eqn:D; [|reflexivity]. now apply S.
  - destruct (is_base (k :: p)) eqn:B.
    + exfalso. apply N. destruct p; [|discriminate B]. cbn in B. apply String.eqb_eq in B. subst k. exists [], b. split; [reflexivity|constructor].
    + destruct (inner b) as [v| |l|b'|l] eqn:I; try reflexivity; destruct (dict_get String.eqb k l) as [x|] eqn:D; try reflexivity; now apply S.
  - destruct (dict_get String.eqb k l) as [x|] eqn:D; [|reflexivity]. now apply S.
Qed.
(** Writing below the selectors. *)
Definition rebuilt (o o' : obj) (l : list (string * obj)) : Prop := inner o' = match inner o with Est _ => Est l | _ => Pipe l end.
Lemma within_first k below v o x : dict_get String.eqb k (members o) = Some x ->
  match (match below with None => Ok v | Some f => f x end) with
  | Ok x' => exists o', within (set_first k below v) o = Ok o' /\ members o' = dict_set String.eqb k x' (members o)
  | Err e => within (set_first k below v) o = Err e
  end.
Proof.
  induction o as [w| |l|b IHb|l]; unfold members; cbn; intros D; try discriminate D.
  - rewrite D. destruct (match below with None => Ok v | Some f => f x end); cbn; [|reflexivity]. eexists. split; reflexivity.
  - unfold members in IHb. specialize (IHb D). destruct (match below with None => Ok v | Some f => f x end).
    + destruct IHb as (o' & -> & E). cbn. eexists. split; [reflexivity|exact E].
    + rewrite IHb. reflexivity.
  - rewrite D. destruct (match below with None => Ok v | Some f => f x end); cbn; [|reflexivity]. eexists. split; reflexivity.
Qed.
Lemma within_missing k below v o : dict_get String.eqb k (members o) = None -> within (set_first k below v) o = Err ValueError \/ within (set_first k below v) o = Err AttributeError.
Proof.
  induction o as [w| |l|b IHb|l]; unfold members; cbn; intros D; auto.
  - left. now rewrite D.
  - unfold members in IHb. destruct (IHb D) as [-> | ->]; cbn; auto.
  - left. now rewrite D.
Qed.
Lemma set_within k p (v o : obj) : is_base (k :: p) = false \/ (forall b, o <> Sel b) -> set (k :: p) v o = within (set_first k (match p with [] => None | _ => Some (set p v) end) v) o.
Proof. intros H. destruct o; cbn [set within]; try reflexivity. destruct H as [-> | H]; [reflexivity|destruct (H o eq_refl)]. Qed.
Lemma not_base o k p : ~ names_wrapped o (k :: p) -> is_base (k :: p) = false \/ (forall b, o <> Sel b).
Proof.
  intros N. destruct (is_base (k :: p)) eqn:B; [right|now left]. intros b ->. apply N. destruct p; [|discriminate B]. cbn in B. apply String.eqb_eq in B. subst. exists [], b. split; [reflexivity|constructor].
Qed.
Lemma set_walk : forall p o x v, p <> [] -> ~ names_wrapped o p -> walk o p = Some x ->
  exists o', set p v o = Ok o' /\ (forall r, walk o' (p ++ r) = walk v r) /\ (forall q, apart p q -> walk o' q = walk o q).
Proof.
  induction p as [|k p IH]; intros o x v NE N W; [congruence|]. clear NE. rewrite set_within by now apply not_base. cbn [walk] in W.
  destruct (dict_get String.eqb k (members o)) as [z|] eqn:D; [|discriminate].
  destruct p as [|k' p].
  - pose proof (within_first k None v o z D) as (o' & E & M). exists o'. split; [exact E|]. split.
    + intros r. cbn [app walk]. rewrite M, (dict_get_set String.eqb String.eqb_eq), String.eqb_refl. reflexivity.
    + intros q A. destruct q as [|h q]; [destruct (A [k]) as [C _]; now destruct C|]. cbn [walk]. rewrite M, (dict_get_set String.eqb String.eqb_eq). destruct (String.eqb_spec h k) as [->|]; [|reflexivity].
      destruct (A q) as [_ C]. now destruct C.
  - destruct (IH z x v) as (z' & E & F & G); [discriminate|intros Q; apply N; eapply names_cons; eauto|exact W|].
    pose proof (within_first k (Some (set (k' :: p) v)) v o z D) as Q. cbn beta iota in Q. rewrite E in Q. destruct Q as (o' & E' & M). exists o'. split; [exact E'|]. split.
    + intros r. change (walk o' (k :: ((k' :: p) ++ r)) = walk v r). cbn [walk]. rewrite M, (dict_get_set String.eqb String.eqb_eq), String.eqb_refl. apply F.
    + intros q A. destruct q as [|h q]; [destruct (A (k :: k' :: p)) as [C _]; now destruct C|]. cbn [walk]. rewrite M, (dict_get_set String.eqb String.eqb_eq). destruct (String.eqb_spec h k) as [->|]; [|reflexivity]. rewrite D.
      apply G. intros r. destruct (A r) as [C1 C2]. split; intros Q; [apply C1|apply C2]; cbn; f_equal; exact Q.
Qed.
Lemma set_missing : forall p o v, p <> [] -> ~ names_wrapped o p -> walk o p = None -> set p v o = Err ValueError \/ set p v o = Err AttributeError.
Proof.
  induction p as [|k p IH]; intros o v NE N W; [congruence|]. clear NE. rewrite set_within by now apply not_base. cbn [walk] in W.
  destruct (dict_get String.eqb k (members o)) as [z|] eqn:D; [|now apply within_missing].
  destruct p as [|k' p]; [discriminate W|].
  pose proof (within_first k (Some (set (k' :: p) v)) v o z D) as Q. cbn beta iota in Q.
  destruct (IH z v) as [E | E]; [discriminate|intros Q'; apply N; eapply names_cons; eauto|exact W| |]; rewrite E in Q; rewrite Q; auto.
Qed.
End Nested.
Arguments at_path {V} o p y. Arguments names_wrapped {V} o p. Arguments AtHere {V}. Arguments walk {V} o p.

(** ** Theorems *)
(** Reading: the value found under a path is the one the path leads to. *)
Theorem C229_read : forall V (o : obj V) p y, p <> [] -> ~ names_wrapped o p -> (get o p = Some y <-> at_path o p y).
Proof. intros V o p y NE N. rewrite walk_iff, get_walk by assumption. reflexivity. Qed.

(** Setting: a parameter that can be read can be set; it then has the given value, with whatever lies below it, and the parameters elsewhere are as they
    were. *)
Theorem C229_set : forall V (o : obj V) p x v, p <> [] -> ~ names_wrapped o p -> at_path o p x ->
  exists o', set p v o = Ok o' /\ (forall r y, at_path o' (p ++ r) y <-> at_path v r y) /\ (forall q y, apart p q -> (at_path o' q y <-> at_path o q y)).
Proof.
  intros V o p x v NE N A. apply walk_iff in A. destruct (set_walk V p o x v NE N A) as (o' & E & F & G). exists o'. split; [exact E|]. split.
  - intros r y. rewrite !walk_iff, F. reflexivity.
  - intros q y Q. rewrite !walk_iff, G by exact Q. reflexivity.
Qed.

(** Unknown paths are refused. *)
Theorem C229_unknown : forall V (o : obj V) p v, p <> [] -> ~ names_wrapped o p -> (forall x, ~ at_path o p x) -> set p v o = Err ValueError \/ set p v o = Err AttributeError.
Proof.
  intros V o p v NE N A. apply set_missing; try assumption. destruct (walk o p) as [x|] eqn:W; [|reflexivity]. destruct (A x). now apply walk_iff.
Qed.

(** An estimator with a parameter base_estimator of its own (JDOTRegressor, JDOTClassifier, DASVMClassifier, GradualEstimator) in a selector: the path that leads to
    the parameter reads the estimator itself, setting it replaces the estimator as a whole, so that its other parameters are lost, and None is not set. *)
Theorem C229_base_estimator_refuted : forall V (steps l l' : list (string * obj V)) step b k x,
  dict_get String.eqb step steps = Some (Sel (Est l)) -> dict_get String.eqb "base_estimator" l = Some b -> dict_get String.eqb k l = Some x -> dict_get String.eqb k l' = None ->
  at_path (Pipe steps) [step; "base_estimator"] b /\ get (Pipe steps) [step; "base_estimator"] = Some (Est l) /\
  (exists o', set [step; "base_estimator"] (Est l') (Pipe steps) = Ok o' /\ at_path (Pipe steps) [step; k] x /\ (forall y, ~ at_path o' [step; k] y)) /\
  (exists o', set [step; "base_estimator"] NoneObj (Pipe steps) = Ok o' /\ at_path o' [step; "base_estimator"] b).
Proof.
  intros V steps l l' step b k x D B K K'. split; [|split; [|split]].
  - apply walk_iff. unfold walk, members; cbn [inner]. rewrite D; cbn [inner]; now rewrite B.
  - cbn. now rewrite D.
  - cbn. rewrite D. cbn. eexists. split; [reflexivity|]. split.
    + apply walk_iff. unfold walk, members; cbn [inner]. rewrite D; cbn [inner]; now rewrite K.
    + intros y A. apply walk_iff in A. unfold walk, members in A; cbn [inner] in A. rewrite (dict_get_set String.eqb String.eqb_eq), String.eqb_refl in A. cbn in A. now rewrite K' in A.
  - cbn. rewrite D. cbn. eexists. split; [reflexivity|]. apply walk_iff. unfold walk, members; cbn [inner]. rewrite (dict_get_set String.eqb String.eqb_eq), String.eqb_refl. cbn [inner]. now rewrite B.
Qed.

(** make_da_pipeline(StandardScaler(), SVC(C=1)) with both steps Shared: svc__C is set to 10 and nothing else changes; with DASVMClassifier(base_estimator=SVC(), k=5)
    as the last step, setting base_estimator to LogisticRegression() removes the DASVMClassifier. *)
Example C229_ex :
  let pipe := Pipe [("standardscaler", Sel (Est [("with_mean", Leaf 1)])); ("svc", Sel (Est [("C", Leaf 1); ("kernel", Leaf 7)]))] in
  let dasvm := Pipe [("dasvmclassifier", Sel (Est [("base_estimator", Est [("C", Leaf 1)]); ("k", Leaf 5)]))] in
  (~ names_wrapped pipe ["svc"; "C"] /\ at_path pipe ["svc"; "C"] (Leaf 1)) /\
  set ["svc"; "C"] (Leaf 10) pipe = Ok (Pipe [("standardscaler", Sel (Est [("with_mean", Leaf 1)])); ("svc", Sel (Est [("C", Leaf 10); ("kernel", Leaf 7)]))]) /\
  apart ["svc"; "C"] ["standardscaler"; "with_mean"] /\ set ["svc"; "gamma"] (Leaf 10) pipe = Err ValueError /\
  set ["dasvmclassifier"; "base_estimator"; "C"] (Leaf 2) dasvm = Ok (Pipe [("dasvmclassifier", Sel (Est [("base_estimator", Est [("C", Leaf 2)]); ("k", Leaf 5)]))]) /\
  set ["dasvmclassifier"; "base_estimator"] (Est [("penalty", Leaf 3)]) dasvm = Ok (Pipe [("dasvmclassifier", Sel (Est [("penalty", Leaf 3)]))]).
Proof.
  cbv zeta. split; [split|split; [|split; [|split; [|split]]]]; try reflexivity.
  - intros (q & b & E & _). destruct q as [|a [|a' [|? q]]]; discriminate E.
  - now apply walk_iff.
  - intros r. split; discriminate.
Qed.
