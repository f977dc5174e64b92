(** C184: what fitting leaves behind is complete: after a fit, no method asks for an attribute that is not there. *)
From Coq Require Import String List Bool Arith Lia.
From Verif Require Import Np HistModel ThmHist.
Import ListNotations.
Local Open Scope string_scope.
Local Open Scope list_scope.

(** The attributes __init__ sets. *)
Definition given (c : cls) (a : string) : bool := mem a (c_params c ++ c_consts c ++ c_derived c).
(** C121: fit_transform of SelectSourceTarget reads routing_, which nothing sets. *)
Definition broken (c : cls) (m : string) : bool := String.eqb (c_name c) "SelectSourceTarget" && String.eqb m "fit_transform".

Section Sound.
  Context {V : Type}.
  Variable comp : nat -> list V -> list V -> res V.
  Variable test : nat -> list V -> list V -> bool.
  Variable count : nat -> list V -> list V -> nat.
  Hypothesis quiet : forall n tr vs, comp n tr vs <> Err AttributeError.
  Notation exec := (exec comp test count).
  Notation exec_all := (exec_all comp test count).
  Notation step := (step comp test count).
  Notation steps := (steps comp test count).

  Section Has.
    Variable st : string -> bool.
    Definition has (D : list string) (o : @obj V) : Prop := forall a, In a D \/ st a = true -> o a <> None.
    Lemma has_reads D o rs : has D o -> known st D rs = true -> exists vs, mapM (get o) rs = Ok vs.
    Proof.
      intros A. unfold known. rewrite forallb_forall. induction rs as [|r rs IH]; intros H; cbn [mapM]; [eauto|].
      assert (E : o r <> None). { apply A. specialize (H r (or_introl eq_refl)). apply orb_true_iff in H as [H|H]; auto. left. now apply mem_In. }
      unfold get at 1. destruct (o r) as [v|]; [|easy]. destruct IH as (vs & ->); [intros; apply H; now right|]. cbn [bind]. eauto.
    Qed.
    Lemma has_set D o a v : has D o -> has (a :: D) (set o a v).
    Proof.
      intros A b Hb. unfold set. destruct (String.eqb a b) eqn:E; [easy|]. apply A. destruct Hb as [[->|Hb]|Hb]; auto. rewrite String.eqb_refl in E. easy.
    Qed.
    Lemma has_sub D D' o : (forall a, In a D -> In a D') -> has D' o -> has D o.
    Proof. intros H A a [Ha|Ha]; apply A; auto. Qed.
    Definition fine (D D' : list string) (x : @obj V * res (list V)) : Prop :=
      snd x <> Err AttributeError /\ has D (fst x) /\ (forall t, snd x = Ok t -> has D' (fst x)).
    Definition safe (s : stmt) : Prop := forall D D' o tr, chk st s D = Some D' -> has D o -> (forall a, In a D -> In a D') /\ fine D D' (exec s o tr).
    Lemma safe_all l : Forall safe l -> forall D D' o tr, chk_all st l D = Some D' -> has D o ->
      (forall a, In a D -> In a D') /\ fine D D' (exec_all l o tr).
    Proof.
      induction 1 as [|s l Hs Hl IH]; intros D D' o tr C A; cbn [chk_all HistModel.exec_all] in *.
      - injection C as <-. split; auto. split; [|split]; cbn; auto; easy.
      - destruct (chk st s D) as [D1|] eqn:E1; [|easy]. destruct (Hs D D1 o tr E1 A) as (I1 & R1 & A1 & A1').
        destruct (exec s o tr) as [p1 [t1|e1]]; cbn [fst snd] in *.
        + destruct (IH D1 D' p1 t1 C (A1' _ eq_refl)) as (I2 & R2 & A2 & A2'). split; [auto|].
          split; [exact R2|split; [|exact A2']]. eapply has_sub; [exact I1|exact A2].
        + split.
          * intros a Ha. apply I1 in Ha. destruct (chk_sound comp test count st l D1 D' o o [] C (fun _ _ => eq_refl)) as (I2 & _). auto.
          * split; [|split]; cbn; auto. easy.
    Qed.
    Lemma safe_stmt s : safe s.
    Proof.
      induction s as [n rs|a n rs|n rs y no Hy Hn|n rs b Hb] using stmt_ind2; intros D D' o tr C A.
      - cbn [chk] in C. destruct (known st D rs) eqn:K; [|easy]. injection C as <-. split; auto. cbn [HistModel.exec]. destruct (has_reads D o rs A K) as (vs & ->).
        pose proof (quiet n tr vs) as Q. destruct (comp n tr vs) as [v|e]; (split; [|split]); cbn; auto; try easy. congruence.
      - cbn [chk] in C. destruct (known st D rs) eqn:K; [|easy]. injection C as <-. split; [intros; now right|]. cbn [HistModel.exec]. destruct (has_reads D o rs A K) as (vs & ->).
        pose proof (quiet n tr vs) as Q. destruct (comp n tr vs) as [v|e]; (split; [|split]); cbn; auto; try easy; try congruence.
        + eapply has_sub; [|apply has_set, A]. intros; now right.
        + intros _ _. apply has_set, A.
      - rewrite chk_if in C. destruct (known st D rs) eqn:K; [|easy]. destruct (chk_all st y D) as [D1|] eqn:C1; [|easy]. destruct (chk_all st no D) as [D2|] eqn:C2; [|easy].
        injection C as <-. destruct (safe_all y Hy D D1 o tr C1 A) as (I1 & R1 & A1 & A1'). destruct (safe_all no Hn D D2 o tr C2 A) as (I2 & R2 & A2 & A2').
        split. { intros a Ha. unfold inter. apply filter_In. split; [|apply mem_In]; auto. }
        rewrite exec_if. destruct (has_reads D o rs A K) as (vs & ->). destruct (test n tr vs).
        + split; [|split]; auto. intros t Ht. eapply has_sub; [|apply (A1' t Ht)]. intros a Ha. apply filter_In in Ha. tauto.
        + split; [|split]; auto. intros t Ht. eapply has_sub; [|apply (A2' t Ht)]. intros a Ha. apply filter_In in Ha. apply mem_In. tauto.
      - rewrite chk_for in C. destruct (known st D rs) eqn:K; [|easy]. destruct (chk_all st b D) as [D1|] eqn:C1; [|easy]. injection C as <-. split; auto.
        rewrite exec_for. destruct (has_reads D o rs A K) as (vs & ->).
        generalize (count n tr vs) as k. clear K. intros k. revert o tr A. induction k as [|k IH]; intros o tr A; cbn [rounds]; [split; [|split]; cbn; auto; easy|].
        destruct (safe_all b Hb D D1 o tr C1 A) as (I1 & R1 & A1 & A1').
        destruct (exec_all b o tr) as [p1 [t1|e1]]; cbn [fst snd] in *; [apply IH; exact A1|]. split; [|split]; cbn; auto; easy.
    Qed.
    Lemma safe_block l D D' o tr : chk_all st l D = Some D' -> has D o -> (forall a, In a D -> In a D') /\ fine D D' (exec_all l o tr).
    Proof. apply safe_all. apply Forall_forall. intros s _. apply safe_stmt. Qed.
  End Has.

  (** What is set stays set. *)
  Definition stays (s : stmt) : Prop := forall a o tr, o a <> None -> fst (exec s o tr) a <> None.
  Lemma stays_all l : Forall stays l -> forall a o tr, o a <> None -> fst (exec_all l o tr) a <> None.
  Proof.
    induction 1 as [|s l Hs Hl IH]; intros a o tr N; cbn [HistModel.exec_all]; auto.
    specialize (Hs a o tr N). destruct (exec s o tr) as [o1 [t1|e]]; cbn [fst] in *; auto.
  Qed.
  Lemma stays_stmt s : stays s.
  Proof.
    induction s as [n rs|b n rs|n rs y no Hy Hn|n rs b Hb] using stmt_ind2; intros a o tr N.
    - cbn [HistModel.exec]. destruct (mapM (get o) rs) as [vs|e]; [destruct (comp n tr vs)|]; auto.
    - cbn [HistModel.exec]. destruct (mapM (get o) rs) as [vs|e]; [destruct (comp n tr vs)|]; auto. cbn [fst]. unfold set. now destruct (String.eqb b a).
    - rewrite exec_if. destruct (mapM (get o) rs) as [vs|e]; auto. destruct (test n tr vs); now apply stays_all.
    - rewrite exec_for. destruct (mapM (get o) rs) as [vs|e]; auto. generalize (count n tr vs) as k. intros k. revert o tr N.
      induction k as [|k IH]; intros o tr N; cbn [rounds]; auto. pose proof (stays_all b Hb a o tr N) as E. destruct (exec_all b o tr) as [o1 [t1|e]]; cbn [fst] in *; auto.
  Qed.
  Lemma stays_step c o x a : o a <> None -> fst (step c o x) a <> None.
  Proof.
    intros N. destruct x as [m args|q v]; cbn [HistModel.step].
    - destruct (method (c_fits c ++ c_others c) m) as [b|]; auto. apply stays_all; auto. apply Forall_forall. intros s _. apply stays_stmt.
    - destruct (mem q (c_params c)); auto. cbn [fst]. unfold set. now destruct (String.eqb q a).
  Qed.
  Lemma stays_steps c h : forall o a, o a <> None -> fst (steps c o h) a <> None.
  Proof. induction h as [|x h IH]; intros o a N; [easy|]. rewrite steps_fst. apply IH. now apply stays_step. Qed.
End Sound.

(** The check of a class: the methods that fit read only what __init__ set or what they wrote before; all methods read only that, or what fitting wrote. *)
Definition complete (c : cls) : bool :=
  forallb (fun f => broken c (fst f) ||
    match chk_all (given c) (snd f) [] with
    | None => false
    | Some D => forallb (fun m => broken c (fst m) || match chk_all (given c) (snd m) D with Some _ => true | None => false end) (c_fits c ++ c_others c)
    end) (c_fits c).
Definition all_classes : list cls := shallow ++ [c_kliep].
Lemma all_complete : Forall (fun c => complete c = true) all_classes.
Proof. repeat (constructor; [vm_compute; reflexivity|]). constructor. Qed.

Lemma method_In2 ms m b : method ms m = Some b -> In (m, b) ms.
Proof.
  induction ms as [|[n b'] ms IH]; cbn; [easy|]. destruct (String.eqb n m) eqn:E; intros H; [|auto]. apply String.eqb_eq in E. injection H as <-. subst. auto.
Qed.

(** [comp] may raise what it likes except AttributeError: an AttributeError then means that an attribute of the object was missing. *)
Theorem C184_nothing_missing : forall (V : Type) (comp : nat -> list V -> list V -> res V) test count k d,
  (forall n tr vs, comp n tr vs <> Err AttributeError) ->
  forall c, In c all_classes -> forall p, (forall q, In q (c_params c) -> p q <> None) ->
  forall before f b args, method (c_fits c) f = Some b -> broken c f = false ->
  let o := fst (steps comp test count c (new c k d p) before) in
  let x := step comp test count c o (Call f args) in
  snd x <> Err AttributeError /\
  (forall v after, snd x = Ok v -> forall i m margs, nth_error after i = Some (Call m margs) ->
     method (c_fits c ++ c_others c) m <> None -> broken c m = false ->
     nth_error (snd (steps comp test count c (fst x) after)) i <> Some (Err AttributeError)).
Proof.
  intros V comp test count k d Q c Hc p Hp before f b args Hf Bf o x.
  pose proof (proj1 (Forall_forall _ _) all_complete c Hc) as OK. unfold complete in OK. rewrite forallb_forall in OK.
  specialize (OK _ (method_In2 _ _ _ Hf)). cbn [fst snd] in OK. rewrite Bf in OK. cbn [orb] in OK.
  destruct (chk_all (given c) b []) as [D|] eqn:CD; [|easy]. rewrite forallb_forall in OK.
  assert (G : has (given c) [] o).
  { intros a [[]|Ha]. unfold o. apply stays_steps. unfold given in Ha. apply mem_In in Ha. unfold new.
    destruct (mem a (c_params c)) eqn:E1; [apply Hp; now apply mem_In|]. destruct (mem a (c_consts c)) eqn:E2; [easy|]. destruct (mem a (c_derived c)) eqn:E3; [easy|].
    apply mem_not in E1, E2, E3. rewrite !in_app_iff in Ha. tauto. }
  assert (M : method (c_fits c ++ c_others c) f = Some b) by now apply method_app_l.
  destruct (safe_block comp test count Q (given c) b [] D o args CD G) as (_ & R & _ & A).
  unfold x. cbn [step]. rewrite M. split; [exact R|]. intros v after Hv. specialize (A v Hv).
  revert A. generalize (fst (exec_all comp test count b o args)) as o1. clear - OK Q.
  induction after as [|y after IH]; intros o1 A i m margs Hi Hm Bm; [now destruct i|].
  cbn [steps]. destruct (step comp test count c o1 y) as [o2 r] eqn:E. destruct (steps comp test count c o2 after) as [o3 rs] eqn:E3. cbn [snd].
  destruct i as [|i]; cbn [nth_error] in *.
  - injection Hi as ->. cbn [step] in E. destruct (method (c_fits c ++ c_others c) m) as [b'|] eqn:M; [|easy].
    specialize (OK _ (method_In2 _ _ _ M)). cbn [fst snd] in OK. rewrite Bm in OK. cbn [orb] in OK. destruct (chk_all (given c) b' D) as [D'|] eqn:CD; [|easy].
    destruct (safe_block comp test count Q (given c) b' D D' o1 margs CD A) as (_ & R & _). rewrite E in R. cbn [snd] in R. congruence.
  - assert (A2 : has (given c) D o2).
    { intros a Ha. replace o2 with (fst (step comp test count c o1 y)) by now rewrite E. apply stays_step. now apply A. }
    specialize (IH o2 A2 i m margs Hi Hm Bm). now rewrite E3 in IH.
Qed.

(** Outside the theorem: fit_transform of SelectSourceTarget on a step that is not the last, whatever was done before and whatever the lines compute. *)
Theorem C184_source_target_outside : forall (V : Type) (comp : nat -> list V -> list V -> res V) test count k d p before args,
  (forall tr vs, test 730 tr vs = false) ->
  forall v, snd (step comp test count c_sst (fst (steps comp test count c_sst (new c_sst k d p) before)) (Call "fit_transform" args)) <> Ok v.
Proof.
  intros V comp test count k d p before args T v.
  assert (N : fst (steps comp test count c_sst (new c_sst k d p) before) "routing_" = None).
  { rewrite steps_keep; [reflexivity| |]; vm_compute; intuition discriminate. }
  revert N. generalize (fst (steps comp test count c_sst (new c_sst k d p) before)) as o. intros o N.
  change (step comp test count c_sst o (Call "fit_transform" args)) with
    (exec_all comp test count ((Do 730 ["source_estimator"] :: sst_fit_s) ++ [If 730 [] [] [Do 736 ["routing_"]; Do 737 []]; Do 738 []]) o args).
  assert (K : forall l o1 tr, ~ In "routing_" (puts_all l) -> o1 "routing_" = None ->
    snd (exec_all comp test count (l ++ [If 730 [] [] [Do 736 ["routing_"]; Do 737 []]; Do 738 []]) o1 tr) <> Ok v).
  { induction l as [|s l IH]; intros o1 tr P1 P2.
    - cbn [app exec_all]. rewrite exec_if. cbn [mapM]. rewrite T. cbn [exec_all exec mapM]. unfold get at 1. rewrite P2. cbn. easy.
    - cbn [app exec_all]. destruct (exec comp test count s o1 tr) as [o2 [t|e]] eqn:E; [|easy]. unfold puts_all in P1. cbn [map concat] in P1. rewrite in_app_iff in P1.
      apply IH; [tauto|]. replace o2 with (fst (exec comp test count s o1 tr)) by now rewrite E. rewrite keeps_stmt; tauto. }
  apply K; auto. vm_compute. intuition discriminate.
Qed.

(** All classes, and a run: without a fit, [transform] of CORAL finds nothing; after a fit it does, also when a later fit fails half-way. *)
Definition halfway (n : nat) (tr vs : list nat) : res nat := if Nat.eqb n 869 then (if Nat.eqb (last tr 0) 13 then Err ValueError else Ok 1) else Ok (fold_left plus (tr ++ vs) 1).
Example C184_ex :
  length all_classes = 31 /\ map (fun c => (c_name c, map fst (filter (fun m => broken c (fst m)) (c_fits c ++ c_others c)))) (filter (fun c => existsb (fun m => broken c (fst m)) (c_fits c ++ c_others c)) all_classes)
    = [("SelectSourceTarget", ["fit_transform"])] /\
  (forall n tr vs, halfway n tr vs <> Err AttributeError) /\
  (let r := snd (steps halfway (fun _ _ _ => true) (fun _ _ _ => 2) c_coral (new c_coral (fun _ => 0) (fun _ _ => 0) (fun _ => Some 3))
                  [Call "transform" [7]; Call "fit" [1]; Call "transform" [5; 6]; Call "fit" [13]; Call "transform" [5; 6]]) in
   map (fun x => match x with Ok _ => None | Err e => Some e end) r = [Some AttributeError; None; None; Some ValueError; None]).
Proof.
  split; [reflexivity|]. split; [vm_compute; reflexivity|]. split; [|vm_compute; reflexivity].
  intros n tr vs. unfold halfway. destruct (Nat.eqb n 869); [destruct (Nat.eqb (last tr 0) 13)|]; discriminate.
Qed.
