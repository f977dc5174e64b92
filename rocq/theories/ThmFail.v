(** C212: what a fit that raises leaves behind. *)
From Coq Require Import String List Bool Arith Lia.
From Verif Require Import Np HistModel ThmHist ThmHist2.
Import ListNotations.
Local Open Scope string_scope.
Local Open Scope list_scope.

(** ** Specification *)
Section Spec.
  Context {V : Type}.
  Variable comp : nat -> list V -> list V -> res V.
  Variable test : nat -> list V -> list V -> bool.
  Variable count : nat -> list V -> list V -> nat.
  (** Two objects of a class give the same answers: every method that does not fit returns the same, for all arguments. *)
  Definition same_answers (c : cls) (o1 o2 : @obj V) : Prop := forall m args, method (c_fits c) m = None ->
    snd (step comp test count c o1 (Call m args)) = snd (step comp test count c o2 (Call m args)).
End Spec.
(** The lines that only store values computed before, and therefore do not raise: _reweight.py 124-125 and 1055, _ot.py 593 and 723, base.py 437-438 and 486-487. *)
Definition storing (c : cls) : list nat :=
  if String.eqb (c_name c) "DensityReweightAdapter" then [124; 125] else
  if String.eqb (c_name c) "KMMReweightAdapter" then [1055] else
  if String.eqb (c_name c) "JDOTRegressor" then [593] else
  if String.eqb (c_name c) "JDOTClassifier" then [723] else
  if mem (c_name c) ["Shared"; "SelectSource"; "SelectTarget"] then [437; 438] else
  if String.eqb (c_name c) "PerDomain" then [486; 487] else [].
(** The classes that compute everything before they store anything that other methods use. *)
Definition careful : list cls :=
  [c_density; c_discriminator; c_kmm; c_tsl; c_jdot_reg; c_jdot_cls; c_otlp; c_jcpot; c_sub; c_domsub; c_stratsub; c_shared; c_selsource; c_seltarget; c_perdomain; c_sst].
(** The others, each with a line of fit that can raise after something was stored, two methods that show it and the tests that fail on the way. *)
Definition careless : list (cls * nat * string * string * list nat) :=
  [(c_ot, 61, "transform", "transform", []); (c_entropic, 61, "transform", "transform", []); (c_classreg, 61, "transform", "transform", []);
   (c_linear, 61, "transform", "transform", []); (c_mlm, 653, "transform", "transform", []); (c_coral, 869, "transform", "transform", [916; 924]);
   (c_ls, 1091, "transform", "transform", [1058; 1158; 1161; 1164]); (c_gaussian, 234, "compute_weights", "compute_weights", []);
   (c_nearest, 790, "compute_weights", "compute_weights", []); (c_mmdtars, 1299, "compute_weights", "compute_weights", [1342; 1345]);
   (c_sa, 103, "transform", "transform", []); (c_tca, 284, "transform", "transform", [362]); (c_tjm, 584, "transform", "transform", [522]);
   (c_dasvm, 178, "predict_proba", "predict", []); (c_kliep, 498, "compute_weights", "compute_weights", []); (c_gradual, 201, "predict", "predict", [])].

(** ** Checks *)
Fixpoint reads (s : stmt) : list string :=
  match s with Do _ rs => rs | Put _ _ rs => rs | If _ rs y n => rs ++ concat (map reads y) ++ concat (map reads n) | For _ rs b => rs ++ concat (map reads b) end.
Definition seen (c : cls) : list string := concat (map (fun m => concat (map reads (snd m))) (c_others c)).
Definition quiet (c : cls) (l : list stmt) : bool := forallb (fun a => negb (mem a (seen c))) (puts_all l).
Definition stores (c : cls) (s : stmt) : bool := match s with Put _ n [] => existsb (Nat.eqb n) (storing c) | _ => false end.
(** Statements that change nothing that is seen, then one that may, then only storing lines. *)
Fixpoint late (c : cls) (l : list stmt) : bool :=
  match l with
  | [] => true
  | s :: l' => (quiet c [s] && late c l') || (match s with Put _ _ _ => true | _ => false end && forallb (stores c) l')
  end.
Definition readers_ok (c : cls) : bool := forallb (fun m => match chk_all (fun a => mem a (seen c)) (snd m) [] with Some _ => true | None => false end) (c_others c).

Section Proof.
  Context {V : Type}.
  Variable comp : nat -> list V -> list V -> res V.
  Variable test : nat -> list V -> list V -> bool.
  Variable count : nat -> list V -> list V -> nat.
  Variable c : cls.
  Hypothesis Hstore : forall n tr vs, In n (storing c) -> exists v, comp n tr vs = Ok v.
  Notation exec_all := (exec_all comp test count).
  Notation exec := (exec comp test count).
  Definition seen_same (o1 o2 : @obj V) : Prop := forall a, In a (seen c) -> o1 a = o2 a.

  Lemma quiet_keeps l o tr : quiet c l = true -> seen_same (fst (exec_all l o tr)) o.
  Proof.
    intros Q a Ha. apply keeps_block. intros H. unfold quiet in Q. rewrite forallb_forall in Q. specialize (Q a H). apply negb_true_iff, mem_not in Q. auto.
  Qed.
  Lemma stores_go : forall l o tr, forallb (stores c) l = true -> exists t, snd (exec_all l o tr) = Ok t.
  Proof.
    induction l as [|s l IH]; intros o tr H; cbn [HistModel.exec_all]; [exists tr; reflexivity|]. cbn [forallb] in H. apply andb_true_iff in H as [Hs H].
    destruct s as [| a n rs| |]; try discriminate. cbn [stores] in Hs. destruct rs; [|discriminate]. apply existsb_exists in Hs as (x & Hx & E). apply Nat.eqb_eq in E. subst x.
    cbn [HistModel.exec mapM]. destruct (Hstore n tr [] Hx) as (v & ->). apply IH; auto.
  Qed.
  (** A body that stores late and raises has changed nothing that is seen. *)
  Lemma late_fails : forall l o tr e, late c l = true -> snd (exec_all l o tr) = Err e -> seen_same (fst (exec_all l o tr)) o.
  Proof.
    induction l as [|s l IH]; intros o tr e H E; cbn [HistModel.exec_all] in *; [easy|]. cbn [late] in H. apply orb_true_iff in H as [H|H].
    - apply andb_true_iff in H as [Q H]. pose proof (quiet_keeps [s] o tr Q) as K. cbn [HistModel.exec_all] in K.
      destruct (exec s o tr) as [o1 [t1|e1]]; cbn [fst snd] in *; [|exact K]. intros a Ha. rewrite (IH o1 t1 e H E a Ha). now apply K.
    - apply andb_true_iff in H as [P H]. destruct s as [|a n rs| |]; try discriminate. cbn [HistModel.exec] in *. destruct (mapM (get o) rs) as [vs|]; [|now intros ? ?].
      destruct (comp n tr vs) as [v|]; [|now intros ? ?]. destruct (stores_go l (set o a v) (v :: tr) H) as (t & Et). rewrite Et in E. discriminate.
  Qed.
  Lemma answers o1 o2 : readers_ok c = true -> seen_same o1 o2 -> same_answers comp test count c o1 o2.
  Proof.
    intros R S m args N. cbn [HistModel.step]. assert (E : method (c_fits c ++ c_others c) m = method (c_others c) m).
    { clear - N. induction (c_fits c) as [|[n x] l IH]; cbn in *; auto. destruct (String.eqb n m); [easy|auto]. }
    rewrite E. destruct (method (c_others c) m) as [b|] eqn:Eb; [|reflexivity]. apply method_In2 in Eb. unfold readers_ok in R. rewrite forallb_forall in R.
    specialize (R _ Eb). cbn [snd] in R. destruct (chk_all (fun a => mem a (seen c)) b []) as [D'|] eqn:C; [|discriminate].
    apply (chk_sound comp test count (fun a => mem a (seen c)) b [] D' o1 o2 args C). intros a [[]|Ha]. apply S. now apply mem_In.
  Qed.
  Lemma exec_app : forall l1 l2 o tr, exec_all (l1 ++ l2) o tr = match exec_all l1 o tr with (o1, Ok t1) => exec_all l2 o1 t1 | (o1, Err e) => (o1, Err e) end.
  Proof.
    induction l1 as [|s l IH]; intros l2 o tr; [reflexivity|]. cbn [app HistModel.exec_all]. destruct (exec s o tr) as [o1 [t1|e]]; auto.
  Qed.
End Proof.

(** A method that fits is [late], or it is the method fit with local computations before it and computations that change nothing seen after it. *)
Definition around (c : cls) (b : list stmt) : Prop := late c b = true \/
  exists fit before after, method (c_fits c) "fit" = Some fit /\ late c fit = true /\ b = before ++ fit ++ after /\ puts_all before = [] /\ quiet c after = true.
Definition careful_ok (c : cls) : Prop := readers_ok c = true /\ Forall (fun m => around c (snd m)) (c_fits c).
Ltac cut_at i := right; match goal with |- exists fit before after, method (c_fits ?c) _ = _ /\ _ /\ ?b = _ /\ _ =>
  let f := eval vm_compute in (method (c_fits c) "fit") in match f with Some ?f => let b' := eval vm_compute in b in
  exists f, (firstn i b'), (skipn (i + length f) b'); repeat split; vm_compute; reflexivity end end.
Lemma all_careful : Forall careful_ok careful.
Proof.
  repeat (apply Forall_cons; [split; [vm_compute; reflexivity|unfold c_fits; repeat (apply Forall_cons; [cbn [snd]; first [left; vm_compute; reflexivity|cut_at 0|cut_at 1|cut_at 2]|]); apply Forall_nil]|]).
  apply Forall_nil.
Qed.

(** After a fit that raised, an object of a careful class answers as before the call, or, if only the transformation after the fit raised, as after a
    successful fit. *)
Theorem C212_careful : forall c, In c careful -> forall (V : Type) (comp : nat -> list V -> list V -> res V) test count,
  (forall n tr vs, In n (storing c) -> exists v, comp n tr vs = Ok v) ->
  forall (o : @obj V) f b args e, method (c_fits c) f = Some b ->
  let x := step comp test count c o (Call f args) in snd x = Err e ->
  same_answers comp test count c (fst x) o \/
  (f <> "fit" /\ exists args1 v, let y := step comp test count c o (Call "fit" args1) in snd y = Ok v /\ same_answers comp test count c (fst x) (fst y)).
Proof.
  intros c Hc V comp test count HS o f b args e Hf x Hx. destruct (proj1 (Forall_forall _ _) all_careful c Hc) as [R A].
  assert (Ef : method (c_fits c ++ c_others c) f = Some b) by now apply method_app_l. subst x. cbn [HistModel.step] in *. rewrite Ef in *.
  assert (L : late c b = true -> same_answers comp test count c (fst (exec_all comp test count b o args)) o).
  { intros L. apply answers; auto. eapply late_fails; eauto. }
  rewrite Forall_forall in A. specialize (A _ (method_In2 _ _ _ Hf)). cbn [snd] in A. destruct A as [A|(fit & bf & af & Mf & Lf & -> & Pb & Qa)]; [left; auto|].
  destruct (string_dec f "fit") as [->|Nf]; [left; apply L; rewrite Mf in Hf; injection Hf as E1; now rewrite E1 in Lf|].
  rewrite exec_app in Hx. rewrite exec_app.
  assert (Kb : forall a, fst (exec_all comp test count bf o args) a = o a) by (intros a; apply keeps_block; now rewrite Pb).
  destruct (exec_all comp test count bf o args) as [o1 [t1|e1]] eqn:Eb; cbn [fst snd] in *; [|left; apply answers; auto; intros a _; apply Kb].
  rewrite exec_app in Hx. rewrite exec_app.
  assert (Lx : same_answers comp test count c o1 o) by (apply answers; auto; intros a _; apply Kb).
  destruct (exec_all comp test count fit o1 t1) as [o2 [t2|e2]] eqn:E2; cbn [fst snd] in *.
  - right. split; [auto|]. exists t1.
    (* fit on o and on o1, which agree everywhere, give the same *)
    assert (C : alike (fun _ => true) [] [] (exec_all comp test count fit o1 t1) (exec_all comp test count fit o t1)).
    { assert (G : exists D, chk_all (fun _ => true) fit [] = Some D).
      { clear. generalize (@nil string). induction fit as [|s l IH]; intros D; cbn [chk_all]; [eauto|].
        assert (K : exists D1, chk (fun _ => true) s D = Some D1); [|destruct K as (D1 & ->); apply IH].
        clear. revert D. assert (Kn : forall D rs, known (fun _ => true) D rs = true) by (intros; unfold known; apply forallb_forall; intros; apply orb_true_r).
        induction s as [n rs|a n rs|n rs y no Hy Hn|n rs bd Hb] using stmt_ind2; intros D.
        - cbn [chk]. rewrite Kn. eauto.
        - cbn [chk]. rewrite Kn. eauto.
        - rewrite chk_if, Kn.
          assert (Ky : exists D1, chk_all (fun _ => true) y D = Some D1) by (revert D; induction Hy as [|s l Hs _ IH]; intros D; cbn [chk_all]; [eauto|]; destruct (Hs D) as (D1 & ->); apply IH).
          assert (Kno : exists D1, chk_all (fun _ => true) no D = Some D1) by (revert D Ky; induction Hn as [|s l Hs _ IH]; intros D Ky; cbn [chk_all]; [eauto|]; destruct (Hs D) as (D1 & ->); apply IH; clear - Hy; revert D1; induction Hy as [|s l Hs _ IH]; intros D; cbn [chk_all]; [eauto|]; destruct (Hs D) as (D1 & ->); apply IH).
          destruct Ky as (D1 & ->), Kno as (D2 & ->). eauto.
        - rewrite chk_for, Kn.
          assert (Ky : exists D1, chk_all (fun _ => true) bd D = Some D1) by (revert D; induction Hb as [|s l Hs _ IH]; intros D; cbn [chk_all]; [eauto|]; destruct (Hs D) as (D1 & ->); apply IH).
          destruct Ky as (D1 & ->). eauto. }
      destruct G as (D & G). destruct (chk_sound comp test count (fun _ => true) fit [] D o1 o t1 G) as (_ & A1 & A2 & A3); [intros a _; apply Kb|].
      split; [exact A1|]. split; [exact A2|]. intros t _. exact A2. }
    rewrite E2 in C. destruct C as (C1 & C2 & _). exists t2. cbn [fst snd] in *.
    rewrite (method_app_l _ _ _ _ Mf). cbv zeta. split; [now rewrite <- C1|]. apply answers; auto. intros a Ha. rewrite <- (C2 a (or_intror eq_refl)).
    apply (quiet_keeps comp test count c af o2 t2 Qa a Ha).
  - left. intros m args' N. rewrite <- (Lx m args' N). apply answers; auto. intros a Ha. pose proof (late_fails comp test count c HS fit o1 t1 e2 Lf) as LF.
    rewrite E2 in LF. cbn [fst snd] in LF. apply (LF eq_refl a Ha).
Qed.

(** ** The other classes *)
(** Every value is a list of marks: a line returns the marks of the call's argument followed by those of what it reads. Line [L] raises for the second data set. *)
Definition marks (n : nat) (tr vs : list (list nat)) : res (list nat) := Ok (last tr [] ++ concat vs).
Definition marks_but (L n : nat) (tr vs : list (list nat)) : res (list nat) :=
  if Nat.eqb n L && existsb (Nat.eqb 2) (last tr []) then Err ValueError else marks n tr vs.
(** For each of these classes there is a computation in which a first fit succeeds, a second raises at the given line, and then the object answers neither as
    after the first fit nor as it would have answered if the second had succeeded. *)
Theorem C212_careless_refuted : forall c L m1 m2 t, In (c, L, m1, m2, t) careless ->
  exists (comp comp' : nat -> list (list nat) -> list (list nat) -> res (list nat)) test count (o : @obj (list nat)) (data1 data2 : list (list nat)),
  (forall n tr vs, n <> L -> comp n tr vs = comp' n tr vs) /\
  let step1 := step comp test count c o (Call "fit" data1) in
  let step2 := step comp test count c (fst step1) (Call "fit" data2) in
  let after_success := step comp' test count c (fst step1) (Call "fit" data2) in
  (exists v, snd step1 = Ok v) /\ (exists e, snd step2 = Err e) /\ (exists v, snd after_success = Ok v) /\
  ~ same_answers comp test count c (fst step2) (fst step1) /\ ~ same_answers comp test count c (fst step2) (fst after_success).
Proof.
  intros c L m1 m2 t H. exists (marks_but L), marks, (fun n _ _ => negb (existsb (Nat.eqb n) t)), (fun _ _ _ => 1), (new c (fun _ => []) (fun _ _ => []) (fun _ => Some [])), [[1]], [[2]].
  split; [intros n tr vs N; unfold marks_but; destruct (Nat.eqb_spec n L); [contradiction|reflexivity]|].
  unfold careless in H. cbn [In] in H.
  repeat (destruct H as [H|H]; [injection H as <- <- <- <- <-; cbv zeta; split; [vm_compute; eexists; reflexivity|]; split; [vm_compute; eexists; reflexivity|];
    split; [vm_compute; eexists; reflexivity|]; split; intros S;
    [match type of S with same_answers _ _ _ ?c _ _ => let l := eval vm_compute in (map (fun x => snd (fst (fst x))) (filter (fun x => String.eqb (c_name (fst (fst (fst (fst x))))) (c_name c)) careless)) in
       match l with [?m] => specialize (S m [[3]]) end end
    |match type of S with same_answers _ _ _ ?c _ _ => let l := eval vm_compute in (map (fun x => snd (fst x)) (filter (fun x => String.eqb (c_name (fst (fst (fst (fst x))))) (c_name c)) careless)) in
       match l with [?m] => specialize (S m [[3]]) end end];
    vm_compute in S; specialize (S eq_refl); discriminate S|]). destruct H.
Qed.
(** The two lists cover all the classes. *)
Example C212_ex_cover : length careful + length careless = 32 /\ forall c, In c (all_classes ++ [c_gradual]) -> In (c_name c) (map c_name careful ++ map (fun x => c_name (fst (fst (fst (fst x))))) careless).
Proof.
  split; [reflexivity|]. intros c H. assert (G : forallb (fun c => mem (c_name c) (map c_name careful ++ map (fun x => c_name (fst (fst (fst (fst x))))) careless)) (all_classes ++ [c_gradual]) = true) by (vm_compute; reflexivity).
  rewrite forallb_forall in G. apply mem_In. now apply G.
Qed.
(** A KMM adapter is fitted, a refit raises in the optimisation: the weights are those of the first fit, marked 1. *)
Example C212_ex_kmm : let run := steps (marks_but 1089) (fun _ _ _ => true) (fun _ _ _ => 1) c_kmm (new c_kmm (fun _ => []) (fun _ _ => []) (fun _ => Some [])) in
  map (fun r => match r with Ok (v :: _) => Some v | _ => None end) (snd (run [Call "fit" [[1]]; Call "fit" [[2]]; Call "compute_weights" [[3]]])) = [Some [1]; None; Some [3]] /\
  map (fun r => match r with Ok (_ :: v :: _) => Some v | _ => None end) (snd (run [Call "fit" [[1]]; Call "fit" [[2]]; Call "compute_weights" [[3]]])) = [Some [1]; None; Some [3; 1]].
Proof. split; vm_compute; reflexivity. Qed.
