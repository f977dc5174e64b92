(** C175: fitting again forgets the past; only fitting changes an object; nothing changes its parameters. *)
From Coq Require Import String List Bool Arith Lia.
From Verif Require Import Np HistModel.
Import ListNotations.
Local Open Scope string_scope.
Local Open Scope list_scope.

(** ** A static check: every attribute is read only if it is [stable] or was written earlier in the same call on every path. *)
Definition inter (a b : list string) : list string := filter (fun x => mem x b) a.
Section Check.
  Variable stable : string -> bool.
  Definition known (D rs : list string) : bool := forallb (fun r => mem r D || stable r) rs.
  Fixpoint chk (s : stmt) (D : list string) {struct s} : option (list string) :=
    let blk := fix blk (l : list stmt) (D : list string) : option (list string) :=
      match l with [] => Some D | s :: l' => match chk s D with Some D1 => blk l' D1 | None => None end end in
    match s with
    | Do _ rs => if known D rs then Some D else None
    | Put a _ rs => if known D rs then Some (a :: D) else None
    | If _ rs yes no => if known D rs then match blk yes D, blk no D with Some D1, Some D2 => Some (inter D1 D2) | _, _ => None end else None
    | For _ rs body => if known D rs then match blk body D with Some _ => Some D | None => None end else None
    end.
  Fixpoint chk_all (l : list stmt) (D : list string) : option (list string) :=
    match l with [] => Some D | s :: l' => match chk s D with Some D1 => chk_all l' D1 | None => None end end.
End Check.
(** The attributes a statement can write. *)
Fixpoint puts (s : stmt) : list string :=
  match s with Do _ _ => [] | Put a _ _ => [a] | If _ _ y n => concat (map puts y) ++ concat (map puts n) | For _ _ b => concat (map puts b) end.
Definition puts_all (l : list stmt) : list string := concat (map puts l).
Definition writes (c : cls) : list string := concat (map (fun m => puts_all (snd m)) (c_fits c ++ c_others c)).

Lemma mem_In a l : mem a l = true <-> In a l.
Proof.
  unfold mem. rewrite existsb_exists. split.
  - intros (x & H & E). apply String.eqb_eq in E. now subst.
  - intros H. exists a. split; auto. apply String.eqb_refl.
Qed.
Lemma mem_not a l : mem a l = false <-> ~ In a l.
Proof. rewrite <- mem_In. destruct (mem a l); split; congruence. Qed.

Lemma stmt_ind2 (P : stmt -> Prop) :
  (forall n rs, P (Do n rs)) -> (forall a n rs, P (Put a n rs)) ->
  (forall n rs y no, Forall P y -> Forall P no -> P (If n rs y no)) -> (forall n rs b, Forall P b -> P (For n rs b)) -> forall s, P s.
Proof.
  intros H1 H2 H3 H4. fix IH 1. intros [n rs|a n rs|n rs y no|n rs b].
  - apply H1.
  - apply H2.
  - apply H3; [induction y|induction no]; constructor; auto.
  - apply H4. induction b; constructor; auto.
Qed.

Section Sound.
  Context {V : Type}.
  Variable comp : nat -> list V -> list V -> res V.
  Variable test : nat -> list V -> list V -> bool.
  Variable count : nat -> list V -> list V -> nat.
  Notation exec := (exec comp test count).
  Notation exec_all := (exec_all comp test count).

  Fixpoint rounds (body : list stmt) (k : nat) (o : obj) (tr : list V) : obj * res (list V) :=
    match k with 0 => (o, Ok tr) | S k' => match exec_all body o tr with (o1, Ok tr1) => rounds body k' o1 tr1 | (o1, Err e) => (o1, Err e) end end.
  Lemma exec_if n rs y no o tr : exec (If n rs y no) o tr =
    match mapM (get o) rs with Err e => (o, Err e) | Ok vs => if test n tr vs then exec_all y o tr else exec_all no o tr end.
  Proof. reflexivity. Qed.
  Lemma exec_for n rs b o tr : exec (For n rs b) o tr = match mapM (get o) rs with Err e => (o, Err e) | Ok vs => rounds b (count n tr vs) o tr end.
  Proof.
    cbn [HistModel.exec]. destruct (mapM (get o) rs) as [vs|e]; auto. generalize (count n tr vs) as m. intros m. revert o tr.
    induction m as [|m IH]; intros o tr; [reflexivity|]. cbn [rounds].
    change ((fix block (l : list stmt) (o0 : obj) (tr0 : list V) {struct l} : obj * res (list V) :=
               match l with
               | [] => (o0, Ok tr0)
               | s :: l' => match exec s o0 tr0 with (o2, Ok tr1) => block l' o2 tr1 | (o3, Err e) => (o3, Err e) end
               end) b o tr) with (exec_all b o tr). destruct (exec_all b o tr) as [o1 [t1|e]]; auto.
  Qed.
  Lemma chk_if st n rs y no D : chk st (If n rs y no) D =
    if known st D rs then match chk_all st y D, chk_all st no D with Some D1, Some D2 => Some (inter D1 D2) | _, _ => None end else None.
  Proof. reflexivity. Qed.
  Lemma chk_for st n rs b D : chk st (For n rs b) D = if known st D rs then match chk_all st b D with Some _ => Some D | None => None end else None.
  Proof. reflexivity. Qed.

  Section Agree.
    Variable stable : string -> bool.
    Definition agree (D : list string) (o1 o2 : @obj V) : Prop := forall a, In a D \/ stable a = true -> o1 a = o2 a.
    (** What running the same statements on two objects gives. *)
    Definition alike (D D' : list string) (x y : @obj V * res (list V)) : Prop :=
      snd x = snd y /\ agree D (fst x) (fst y) /\ (forall t, snd x = Ok t -> agree D' (fst x) (fst y)).
    Lemma agree_reads D o1 o2 rs : agree D o1 o2 -> known stable D rs = true -> mapM (get o1) rs = mapM (get o2) rs.
    Proof.
      intros A. unfold known. rewrite forallb_forall. induction rs as [|r rs IH]; intros H; cbn [mapM]; auto.
      assert (E : o1 r = o2 r). { apply A. specialize (H r (or_introl eq_refl)). apply orb_true_iff in H as [H|H]; auto. left. now apply mem_In. }
      unfold get at 1 3. rewrite E. destruct (o2 r); cbn [bind]; auto. rewrite IH; auto. intros x Hx. apply H. now right.
    Qed.
    Lemma agree_set D o1 o2 a v : agree D o1 o2 -> agree (a :: D) (set o1 a v) (set o2 a v).
    Proof. intros A b Hb. unfold set. destruct (String.eqb a b) eqn:E; auto. apply A. destruct Hb as [[->|Hb]|Hb]; auto. rewrite String.eqb_refl in E. easy. Qed.
    Lemma agree_sub D D' o1 o2 : (forall a, In a D -> In a D') -> agree D' o1 o2 -> agree D o1 o2.
    Proof. intros H A a [Ha|Ha]; apply A; auto. Qed.

    Definition good (s : stmt) : Prop := forall D D' o1 o2 tr, chk stable s D = Some D' -> agree D o1 o2 ->
      (forall a, In a D -> In a D') /\ alike D D' (exec s o1 tr) (exec s o2 tr).
    Lemma good_all l : Forall good l -> forall D D' o1 o2 tr, chk_all stable l D = Some D' -> agree D o1 o2 ->
      (forall a, In a D -> In a D') /\ alike D D' (exec_all l o1 tr) (exec_all l o2 tr).
    Proof.
      induction 1 as [|s l Hs Hl IH]; intros D D' o1 o2 tr C A; cbn [chk_all HistModel.exec_all] in *.
      - injection C as <-. split; auto. split; [|split]; cbn; auto.
      - destruct (chk stable s D) as [D1|] eqn:E1; [|easy]. destruct (Hs D D1 o1 o2 tr E1 A) as (I1 & R1 & A1 & A1').
        destruct (exec s o1 tr) as [p1 [t1|e1]], (exec s o2 tr) as [p2 [t2|e2]]; cbn [fst snd] in *; try easy.
        + injection R1 as <-. destruct (IH D1 D' p1 p2 t1 C (A1' _ eq_refl)) as (I2 & R2 & A2 & A2'). split; [auto|].
          split; [exact R2|split; [|exact A2']]. eapply agree_sub; [exact I1|exact A2].
        + injection R1 as <-. split.
          * destruct (IH D1 D' o1 o1 [] C (fun _ _ => eq_refl)) as (I2 & _). auto.
          * split; [|split]; cbn; auto. easy.
    Qed.
    Lemma good_stmt s : good s.
    Proof.
      induction s as [n rs|a n rs|n rs y no Hy Hn|n rs b Hb] using stmt_ind2; intros D D' o1 o2 tr C A.
      - cbn [chk] in C. destruct (known stable D rs) eqn:K; [|easy]. injection C as <-. split; auto. cbn [HistModel.exec]. rewrite (agree_reads D o1 o2 rs A K).
        destruct (mapM (get o2) rs) as [vs|e]; [destruct (comp n tr vs)|]; split; [|split| |split| |split]; cbn; auto; easy.
      - cbn [chk] in C. destruct (known stable D rs) eqn:K; [|easy]. injection C as <-. split; [intros; now right|]. cbn [HistModel.exec]. rewrite (agree_reads D o1 o2 rs A K).
        destruct (mapM (get o2) rs) as [vs|e]; [destruct (comp n tr vs) as [v|e]|]; (split; [|split]); cbn; auto; try easy.
        + eapply agree_sub; [|apply agree_set, A]. intros; now right.
        + intros _ _. apply agree_set, A.
      - rewrite chk_if in C. destruct (known stable D rs) eqn:K; [|easy]. destruct (chk_all stable y D) as [D1|] eqn:C1; [|easy]. destruct (chk_all stable no D) as [D2|] eqn:C2; [|easy].
        injection C as <-. assert (I : forall a, In a D -> In a (inter D1 D2)).
        { intros a Ha. unfold inter. apply filter_In. split; [|apply mem_In].
          - now apply (good_all y Hy D D1 o1 o2 tr C1 A). - now apply (good_all no Hn D D2 o1 o2 tr C2 A). }
        split; auto. rewrite !exec_if, (agree_reads D o1 o2 rs A K). destruct (mapM (get o2) rs) as [vs|e]; [destruct (test n tr vs)|].
        + destruct (good_all y Hy D D1 o1 o2 tr C1 A) as (_ & R & A1 & A1'). split; [|split]; auto. intros t Ht. eapply agree_sub; [|apply (A1' t Ht)].
          intros a Ha. apply filter_In in Ha. tauto.
        + destruct (good_all no Hn D D2 o1 o2 tr C2 A) as (_ & R & A1 & A1'). split; [|split]; auto. intros t Ht. eapply agree_sub; [|apply (A1' t Ht)].
          intros a Ha. apply filter_In in Ha. apply mem_In. tauto.
        + split; [|split]; cbn; auto; easy.
      - rewrite chk_for in C. destruct (known stable D rs) eqn:K; [|easy]. destruct (chk_all stable b D) as [D1|] eqn:C1; [|easy]. injection C as <-. split; auto.
        rewrite !exec_for, (agree_reads D o1 o2 rs A K). destruct (mapM (get o2) rs) as [vs|e]; [|split; [|split]; cbn; auto; easy].
        generalize (count n tr vs) as k. clear K. intros k. revert o1 o2 tr A. induction k as [|k IH]; intros o1 o2 tr A; cbn [rounds]; [split; [|split]; cbn; auto|].
        destruct (good_all b Hb D D1 o1 o2 tr C1 A) as (I1 & R1 & A1 & A1').
        destruct (exec_all b o1 tr) as [p1 [t1|e1]], (exec_all b o2 tr) as [p2 [t2|e2]]; cbn [fst snd] in *.
        + injection R1 as <-. apply IH. exact A1.
        + easy.
        + easy.
        + injection R1 as <-. split; [|split]; cbn; auto; easy.
    Qed.
    Lemma chk_sound l D D' o1 o2 tr : chk_all stable l D = Some D' -> agree D o1 o2 ->
      (forall a, In a D -> In a D') /\ alike D D' (exec_all l o1 tr) (exec_all l o2 tr).
    Proof. apply good_all. apply Forall_forall. intros s _. apply good_stmt. Qed.
  End Agree.

  (** Attributes that are not written keep their value. *)
  Definition keeps (s : stmt) : Prop := forall a o tr, ~ In a (puts s) -> fst (exec s o tr) a = o a.
  Lemma keeps_all l : Forall keeps l -> forall a o tr, ~ In a (puts_all l) -> fst (exec_all l o tr) a = o a.
  Proof.
    induction 1 as [|s l Hs Hl IH]; intros a o tr N; cbn [HistModel.exec_all]; auto. unfold puts_all in N. cbn [map concat] in N. rewrite in_app_iff in N.
    specialize (Hs a o tr (fun H => N (or_introl H))). destruct (exec s o tr) as [o1 [t1|e]]; cbn [fst] in *; auto. rewrite IH; auto.
  Qed.
  Lemma keeps_stmt s : keeps s.
  Proof.
    induction s as [n rs|b n rs|n rs y no Hy Hn|n rs b Hb] using stmt_ind2; intros a o tr N.
    - cbn [HistModel.exec]. destruct (mapM (get o) rs) as [vs|e]; [destruct (comp n tr vs)|]; auto.
    - cbn [HistModel.exec]. destruct (mapM (get o) rs) as [vs|e]; [destruct (comp n tr vs)|]; auto. cbn [fst]. unfold set.
      destruct (String.eqb b a) eqn:E; auto. apply String.eqb_eq in E. subst. exfalso. apply N. now left.
    - rewrite exec_if. cbn [puts] in N. rewrite in_app_iff in N. destruct (mapM (get o) rs) as [vs|e]; auto. destruct (test n tr vs).
      + apply keeps_all; auto. + apply keeps_all; auto.
    - rewrite exec_for. cbn [puts] in N. destruct (mapM (get o) rs) as [vs|e]; auto. generalize (count n tr vs) as k. intros k. revert o tr.
      induction k as [|k IH]; intros o tr; cbn [rounds]; auto. pose proof (keeps_all b Hb a o tr N) as E. destruct (exec_all b o tr) as [o1 [t1|e]]; cbn [fst] in *; auto.
      now rewrite IH.
  Qed.
  Lemma keeps_block l a o tr : ~ In a (puts_all l) -> fst (exec_all l o tr) a = o a.
  Proof. apply keeps_all. apply Forall_forall. intros s _. apply keeps_stmt. Qed.

  (** ** Histories. *)
  Notation step := (step comp test count).
  Notation steps := (steps comp test count).
  Definition unwritten (c : cls) (a : string) : bool := negb (mem a (writes c)).
  (** The check of a class: its methods never write a parameter or what __init__ derives from the parameters; the methods that fit pass the check from
      nothing; the other methods pass it after any of them and write nothing. *)
  Definition fitted (c : cls) : list (option (list string)) := map (fun m => chk_all (unwritten c) (snd m) []) (c_fits c).
  Definition class_ok (c : cls) : bool :=
    forallb (fun a => negb (mem a (writes c))) (c_params c ++ c_derived c)
    && forallb (fun D => match D with
                         | None => false
                         | Some D => forallb (fun m => match chk_all (unwritten c) (snd m) D with Some _ => true | None => false end) (c_fits c ++ c_others c) end) (fitted c)
    && forallb (fun m => match puts_all (snd m) with [] => true | _ => false end) (c_others c).

  Lemma method_In ms m b : method ms m = Some b -> exists n, In (n, b) ms.
  Proof. induction ms as [|[n b'] ms IH]; cbn; [easy|]. destruct (String.eqb n m); intros H; [injection H as <-; eauto|]. destruct (IH H) as (k & ?). eauto. Qed.
  Lemma method_app_l ms ms' m b : method ms m = Some b -> method (ms ++ ms') m = Some b.
  Proof. induction ms as [|[n b'] ms IH]; cbn; [easy|]. destruct (String.eqb n m); auto. Qed.
  Lemma writes_In c n b a : In (n, b) (c_fits c ++ c_others c) -> In a (puts_all b) -> In a (writes c).
  Proof. intros H1 H2. unfold writes. apply in_concat. exists (puts_all b). split; auto. apply in_map_iff. now exists (n, b). Qed.
  Lemma call_keeps c o m args a : ~ In a (writes c) -> fst (step c o (Call m args)) a = o a.
  Proof.
    intros N. cbn [HistModel.step]. destruct (method (c_fits c ++ c_others c) m) as [b|] eqn:E; auto. apply method_In in E as (n & E).
    apply keeps_block. intros H. apply N. eapply writes_In; eauto.
  Qed.
  Lemma steps_agree c D h : (forall m b, method (c_fits c ++ c_others c) m = Some b -> exists D', chk_all (unwritten c) b D = Some D') ->
    forall o1 o2, agree (unwritten c) D o1 o2 -> snd (steps c o1 h) = snd (steps c o2 h).
  Proof.
    intros HM. induction h as [|x h IH]; intros o1 o2 A; cbn [HistModel.steps]; auto.
    assert (S1 : snd (step c o1 x) = snd (step c o2 x) /\ agree (unwritten c) D (fst (step c o1 x)) (fst (step c o2 x))).
    { destruct x as [m args|q v]; cbn [HistModel.step].
      - destruct (method (c_fits c ++ c_others c) m) as [b|] eqn:E; [|now split]. destruct (HM m b E) as (D' & C).
        destruct (chk_sound (unwritten c) b D D' o1 o2 args C A) as (_ & R & A1 & _). now split.
      - destruct (mem q (c_params c)); cbn [fst snd]; split; auto. eapply agree_sub; [|apply agree_set, A]. intros; now right. }
    destruct (step c o1 x) as [p1 r1], (step c o2 x) as [p2 r2]. cbn [fst snd] in S1. destruct S1 as (-> & A1). specialize (IH p1 p2 A1).
    destruct (steps c p1 h) as [q1 rs1], (steps c p2 h) as [q2 rs2]. cbn [snd] in *. now rewrite IH.
  Qed.
  Lemma steps_fst c o x h : fst (steps c o (x :: h)) = fst (steps c (fst (step c o x)) h).
  Proof. cbn [HistModel.steps]. destruct (step c o x) as [o1 r]. cbn [fst]. now destruct (steps c o1 h). Qed.
  Lemma set_other {o : @obj V} {a q v} : q <> a -> set o q v a = o a.
  Proof. intros N. unfold set. destruct (String.eqb q a) eqn:E; auto. now apply String.eqb_eq in E. Qed.
  (** What no method writes changes only if it is a parameter that is set. *)
  Lemma steps_keep c h : forall o a, ~ In a (writes c) -> ~ In a (c_params c) -> fst (steps c o h) a = o a.
  Proof.
    induction h as [|x h IH]; intros o a N P; [easy|]. rewrite steps_fst, IH by auto. destruct x as [m args|q v]; [now apply call_keeps|].
    cbn [HistModel.step]. destruct (mem q (c_params c)) eqn:E; auto. cbn [fst]. apply set_other. intros ->. now apply P, mem_In.
  Qed.
End Sound.

Lemma all_ok : Forall (fun c => class_ok c = true) shallow.
Proof. repeat (constructor; [vm_compute; reflexivity|]). constructor. Qed.

(** ** The theorems, for every meaning of the computations. *)
Section Statements.
  Context {V : Type}.
  Variable comp : nat -> list V -> list V -> res V.
  Variable test : nat -> list V -> list V -> bool.
  Variable count : nat -> list V -> list V -> nat.
  Variable k : string -> V.
  Variable d : @obj V -> string -> V.
  Notation step := (step comp test count).
  Notation steps := (steps comp test count).

  Lemma ok_parts c : class_ok c = true ->
    (forall a, In a (c_params c ++ c_derived c) -> ~ In a (writes c)) /\
    (forall f b, method (c_fits c) f = Some b -> exists D, chk_all (unwritten c) b [] = Some D /\
        forall m b', method (c_fits c ++ c_others c) m = Some b' -> exists D', chk_all (unwritten c) b' D = Some D') /\
    (forall m b, In (m, b) (c_others c) -> puts_all b = []).
  Proof.
    unfold class_ok. rewrite !andb_true_iff, !forallb_forall. intros ((P & F) & O). split; [|split].
    - intros a Ha. apply P in Ha. apply negb_true_iff in Ha. now apply mem_not.
    - intros f b Hb. apply method_In in Hb as (n & Hb). specialize (F (chk_all (unwritten c) b [])). unfold fitted in F.
      assert (I : In (chk_all (unwritten c) b []) (map (fun m => chk_all (unwritten c) (snd m) []) (c_fits c))) by (apply in_map_iff; now exists (n, b)).
      specialize (F I). destruct (chk_all (unwritten c) b []) as [D|]; [|easy]. exists D. split; auto. intros m b' Hm. apply method_In in Hm as (n' & Hm).
      rewrite forallb_forall in F. specialize (F _ Hm). cbn [snd] in F. destruct (chk_all (unwritten c) b' D); [eauto|easy].
    - intros m b Hb. specialize (O _ Hb). cbn [snd] in O. now destruct (puts_all b).
  Qed.

  (** The parameters of an object are those it was made with, or set since: calls never change them. *)
  Fixpoint last_set (h : list (@op V)) (q : string) (v : option V) : option V :=
    match h with [] => v | SetParam q' v' :: h' => last_set h' q (if String.eqb q' q then Some v' else v) | Call _ _ :: h' => last_set h' q v end.
Theorem C175_parameters : forall c, In c shallow -> forall p h q, In q (c_params c) ->
    fst (steps c (new c k d p) h) q = last_set h q (p q).
  Proof.
    intros c Hc p h q Hq. pose proof (proj1 (Forall_forall _ _) all_ok c Hc) as OK. apply ok_parts in OK as (P & _).
    assert (N : ~ In q (writes c)) by (apply P; apply in_app_iff; now left).
    assert (E : new c k d p q = p q) by (unfold new; apply mem_In in Hq; now rewrite Hq). rewrite <- E. generalize (new c k d p) as o. clear E.
    induction h as [|x h IH]; intros o; [easy|]. rewrite steps_fst, IH. destruct x as [m args|q' v]; cbn [last_set]; [now rewrite call_keeps|].
    cbn [HistModel.step]. destruct (mem q' (c_params c)) eqn:E; cbn [fst]; [reflexivity|]. destruct (String.eqb q' q) eqn:E2; auto. apply String.eqb_eq in E2. subst.
    apply mem_In in Hq. congruence.
  Qed.

  (** Methods that do not fit leave the whole object as it is, whether they succeed or not. *)
Theorem C175_reading : forall c, In c shallow -> forall m b, method (c_fits c) m = None -> method (c_others c) m = Some b ->
    forall o args a, fst (step c o (Call m args)) a = o a.
  Proof.
    intros c Hc m b H1 H2 o args a. pose proof (proj1 (Forall_forall _ _) all_ok c Hc) as OK. apply ok_parts in OK as (_ & _ & O).
    cbn [HistModel.step]. destruct (method (c_fits c ++ c_others c) m) as [b'|] eqn:E; auto. apply keeps_block.
    assert (E' : method (c_others c) m = Some b').
    { clear - H1 E. induction (c_fits c) as [|[n x] l IH]; cbn in *; auto. destruct (String.eqb n m); [easy|auto]. }
    apply method_In in E' as (n & E'). now rewrite (O _ _ E').
  Qed.

  (** Whatever happened before (calls of any methods with any arguments, failures, changes of parameters), fitting has the outcome it has on a new object
      with the same parameters, and if it succeeds everything afterwards is as for that new object. The second hypothesis on [p'] excludes
      parameters changed after __init__ derived an attribute from them. *)
Theorem C175_forget : forall c, In c shallow -> forall p before p' f b args after, method (c_fits c) f = Some b ->
    let o := fst (steps c (new c k d p) before) in
    (forall q, In q (c_params c) -> p' q = o q) -> (forall a, In a (c_derived c) -> d p' a = d p a) ->
    snd (step c o (Call f args)) = snd (step c (new c k d p') (Call f args)) /\
    (forall v, snd (step c o (Call f args)) = Ok v -> snd (steps c o (Call f args :: after)) = snd (steps c (new c k d p') (Call f args :: after))).
  Proof.
    intros c Hc p before p' f b args after Hf o Hp Hd. pose proof (proj1 (Forall_forall _ _) all_ok c Hc) as OK. apply ok_parts in OK as (P & F & _).
    destruct (F f b Hf) as (D & CD & HD).
    assert (A : agree (unwritten c) [] o (new c k d p')).
    { intros a [[]|Ha]. unfold unwritten in Ha. apply negb_true_iff in Ha. apply mem_not in Ha. unfold new. destruct (mem a (c_params c)) eqn:Ep.
      - symmetry. apply Hp. now apply mem_In.
      - apply mem_not in Ep. unfold o. rewrite steps_keep by auto. unfold new. rewrite (proj2 (mem_not _ _) Ep). destruct (mem a (c_consts c)); auto.
        destruct (mem a (c_derived c)) eqn:Ed; auto. rewrite Hd; auto. now apply mem_In. }
    assert (M : method (c_fits c ++ c_others c) f = Some b) by now apply method_app_l.
    destruct (chk_sound comp test count (unwritten c) b [] D o (new c k d p') args CD A) as (_ & R & _ & A').
    assert (S1 : snd (step c o (Call f args)) = snd (step c (new c k d p') (Call f args))) by (cbn [HistModel.step]; rewrite M; exact R).
    split; auto. intros v Hv. cbn [HistModel.steps].
    assert (A2 : agree (unwritten c) D (fst (step c o (Call f args))) (fst (step c (new c k d p') (Call f args)))).
    { cbn [HistModel.step] in *. rewrite M in *. exact (A' v Hv). }
    destruct (step c o (Call f args)) as [o1 r1], (step c (new c k d p') (Call f args)) as [o2 r2]. cbn [fst snd] in *. subst r2.
    pose proof (steps_agree comp test count c D after HD o1 o2 A2) as E. destruct (steps c o1 after), (steps c o2 after). cbn [snd] in *. now rewrite E.
  Qed.
End Statements.

(** The classes covered, the methods that fit, and the check at work: it refuses KLIEP and the gradual estimator, whose fit changes parameters (C80, C94). *)
Example C175_ex_table : length shallow = 30 /\ Forall (fun c => c_fits c <> []) shallow /\ class_ok c_kliep = false /\ class_ok c_gradual = false.
Proof. split; [reflexivity|]. split; [repeat constructor; vm_compute; discriminate|]. split; vm_compute; reflexivity. Qed.

(** A run: numbers as values, a line computes its number plus all it sees. A CORAL adapter fitted twice, with a failing call in between. *)
Definition ex_comp (n : nat) (tr vs : list nat) : res nat := if Nat.eqb n 902 then (if Nat.eqb (length tr) 2 then Err ValueError else Ok 1) else Ok (fold_left plus (tr ++ vs) 1).
Definition ex_steps : @obj nat -> list (@op nat) -> @obj nat * list (res (list nat)) := steps ex_comp (fun _ _ _ => true) (fun _ _ _ => 2) c_coral.
Definition ex_new : @obj nat := new c_coral (fun _ => 0) (fun _ _ => 0) (fun _ => Some 3).
Example C175_ex_run :
  let h1 := [Call "transform" [7]; Call "fit" [1]; Call "transform" [5; 6]; SetParam "reg" 9; Call "fit" [4]] in
  let r := snd (ex_steps ex_new h1) in
  nth 0 r (Ok []) = Err AttributeError /\ nth 2 r (Ok []) = Err ValueError /\
  (exists v, nth 4 r (Err KeyError) = Ok v) /\
  snd (ex_steps (fst (ex_steps ex_new h1)) [Call "fit" [2]; Call "transform" [8]])
  = snd (ex_steps (new c_coral (fun _ => 0) (fun _ _ => 0) (fst (ex_steps ex_new h1))) [Call "fit" [2]; Call "transform" [8]]) /\
  snd (ex_steps (fst (ex_steps ex_new h1)) [Call "fit" [2]; Call "transform" [8]]) <> snd (ex_steps ex_new [Call "fit" [2]; Call "transform" [8]]).
Proof. cbv zeta. split; [reflexivity|]. split; [reflexivity|]. split; [eexists; vm_compute; reflexivity|]. split; [vm_compute; reflexivity|]. vm_compute. discriminate. Qed.
