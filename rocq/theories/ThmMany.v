(** C234: parameters set in one call. *)
From Coq Require Import String List Bool Arith Lia.
From Verif Require Import Np NpFacts NestModel ThmNest ManyModel.
Import ListNotations.
Local Open Scope string_scope.
Local Open Scope list_scope.

Section Facts.
Variable V : Type.
Notation obj := (obj V).
Notation settings := (list (list string * obj)).

Lemma get_set (k h : string) (x : obj) l : dict_get String.eqb h (dict_set String.eqb k x l) = if String.eqb h k then Some x else dict_get String.eqb h l.
Proof. apply (dict_get_set String.eqb String.eqb_eq). Qed.

Lemma direct_spec : forall (kvs : settings) l, (forall k r v, In (k :: r, v) kvs -> exists x, dict_get String.eqb k l = Some x) ->
  exists l1, direct kvs l = Ok l1 /\
    (forall k, (exists v, In ([k], v) kvs /\ dict_get String.eqb k l1 = Some v) \/ ((forall v, ~ In ([k], v) kvs) /\ dict_get String.eqb k l1 = dict_get String.eqb k l)).
Proof.
  induction kvs as [|[p v] kvs IH]; intros l H.
  - exists l. split; [reflexivity|]. intros k. right. split; [intros v []|reflexivity].
  - destruct p as [|k0 r].
    + destruct (IH l) as (l1 & E & P); [intros k r w I; eapply H; right; exact I|]. exists l1. split; [exact E|]. intros k. destruct (P k) as [(w & I & G)|[N G]].
      * left. exists w. split; [now right|exact G].
      * right. split; [|exact G]. intros w [Q|Q]; [discriminate|now apply (N w)].
    + destruct (H k0 r v (or_introl eq_refl)) as [x0 D]. cbn [direct]. rewrite D.
      destruct (IH (match r with [] => dict_set String.eqb k0 v l | _ => l end)) as (l1 & E & P).
      { intros k s w I. destruct (H k s w (or_intror I)) as [x K]. destruct r; [|exists x; exact K]. rewrite get_set. destruct (String.eqb k k0); eauto. }
      exists l1. split; [exact E|]. intros k. destruct (P k) as [(w & I & G)|[N G]].
      * left. exists w. split; [now right|exact G].
      * destruct r as [|r0 r].
        -- rewrite get_set in G. destruct (String.eqb_spec k k0) as [->|NE].
           ++ left. exists v. split; [now left|exact G].
           ++ right. split; [|exact G]. intros w [Q|Q]; [injection Q as Q _; congruence|now apply (N w)].
        -- right. split; [|exact G]. intros w [Q|Q]; [discriminate|now apply (N w)].
Qed.
Lemma nested_spec sub (kvs : settings) : forall ks l, NoDup ks ->
  (forall k, In k ks -> exists x x', dict_get String.eqb k l = Some x /\ sub (tails k kvs) x = Ok x') ->
  exists l', nested sub ks kvs l = Ok l' /\
    (forall k, In k ks -> exists x x', dict_get String.eqb k l = Some x /\ sub (tails k kvs) x = Ok x' /\ dict_get String.eqb k l' = Some x') /\
    (forall k, ~ In k ks -> dict_get String.eqb k l' = dict_get String.eqb k l).
Proof.
  induction ks as [|k0 ks IH]; intros l ND H.
  - exists l. split; [reflexivity|]. split; [intros k []|reflexivity].
  - inversion ND as [|? ? N0 ND']; subst. destruct (H k0 (or_introl eq_refl)) as (x0 & x0' & D & S). cbn [nested]. rewrite D, S. cbn [bind].
    destruct (IH (dict_set String.eqb k0 x0' l) ND') as (l' & E & P & Q).
    { intros k I. destruct (H k (or_intror I)) as (x & x' & K & K'). exists x, x'. split; [|exact K']. rewrite get_set. destruct (String.eqb_spec k k0) as [->|]; [contradiction|exact K]. }
    exists l'. split; [exact E|]. split.
    + intros k [->|I].
      * exists x0, x0'. split; [exact D|]. split; [exact S|]. rewrite (Q k N0), get_set, String.eqb_refl. reflexivity.
      * destruct (P k I) as (x & x' & A & B & C). exists x, x'. rewrite get_set in A. destruct (String.eqb_spec k k0) as [->|]; [contradiction|]. auto.
    + intros k N. rewrite (Q k) by (intros I; apply N; now right). rewrite get_set. destruct (String.eqb_spec k k0) as [->|]; [|reflexivity]. destruct N. now left.
Qed.
Lemma heads_In (kvs : settings) k : In k (heads kvs) <-> exists h r v, In (k :: h :: r, v) kvs.
Proof.
  unfold heads. rewrite <- in_rev, nodup_In, <- in_rev, in_flat_map. split.
  - intros ([p v] & I & J). destruct p as [|a [|b r]]; cbn in J; try contradiction. destruct J as [->|[]]. eauto.
  - intros (h & r & v & I). exists (k :: h :: r, v). split; [exact I|]. now left.
Qed.
Lemma heads_NoDup (kvs : settings) : NoDup (heads kvs).
Proof. unfold heads. apply NoDup_rev, NoDup_nodup. Qed.
Lemma tails_In (kvs : settings) k p v : In (p, v) (tails k kvs) <-> p <> [] /\ In (k :: p, v) kvs.
Proof.
  unfold tails. rewrite in_flat_map. split.
  - intros ([q w] & I & J). destruct q as [|a [|b r]]; cbn in J; try contradiction. destruct (String.eqb_spec a k) as [->|]; [|contradiction]. cbn in J. destruct J as [J|[]]. revert J. intros [= <- <-]. split; [discriminate|exact I].
  - intros (NE & I). exists (k :: p, v). split; [exact I|]. destruct p as [|b r]; [congruence|]. cbn. rewrite String.eqb_refl. now left.
Qed.
Lemma apart_cons k p q : apart (k :: p) (k :: q) -> apart p q.
Proof. intros A r. destruct (A r) as [B C]. split; intros E; [apply B|apply C]; cbn; now f_equal. Qed.
Lemma apart_cons' k p q : apart p q -> apart (k :: p) (k :: q).
Proof. intros A r. destruct (A r) as [B C]. split; cbn; intros E; injection E as E; [now apply B|now apply C]. Qed.
Lemma apart_sym p q : apart p q -> apart q p.
Proof. intros A r. destruct (A r). now split. Qed.
Lemma apart_nil p : ~ apart p [].
Proof. intros A. destruct (A p) as [B _]. now apply B. Qed.
Lemma apart_prefix p r : ~ apart p (p ++ r).
Proof. intros A. destruct (A r) as [_ B]. now apply B. Qed.

Definition pairwise_apart (kvs : settings) : Prop := ForallOrdPairs (fun a b => apart (fst a) (fst b)) kvs.
Lemma tails_pairwise k kvs : pairwise_apart kvs -> pairwise_apart (tails k kvs).
Proof.
  unfold pairwise_apart. induction 1 as [|[p v] kvs F H IH]; [constructor|]. change (tails k ((p, v) :: kvs)) with ((match p with h :: ((_ :: _) as r) => if String.eqb h k then [(r, v)] else [] | _ => [] end) ++ tails k kvs).
  destruct p as [|h [|b r]]; try exact IH. destruct (String.eqb_spec h k) as [->|]; [|exact IH]. cbn. constructor; [|exact IH].
  apply Forall_forall. intros [q w] I. apply tails_In in I as [NE I]. rewrite Forall_forall in F. specialize (F _ I). cbn in *. now apply apart_cons in F.
Qed.
Lemma pairwise_In kvs p v q w : pairwise_apart kvs -> In (p, v) kvs -> In (q, w) kvs -> (p = q /\ v = w) \/ apart p q.
Proof.
  intros H I J. destruct (ForallOrdPairs_In H _ _ I J) as [E|[A|A]]; [left; now injection E|right; exact A|right; now apply apart_sym].
Qed.
Lemma within_level sub (kvs : settings) o l' : (exists k x, dict_get String.eqb k (members V o) = Some x) ->
  (l1 <- direct kvs (members V o) ;; nested sub (heads kvs) kvs l1) = Ok l' -> exists o', within (level sub kvs) o = Ok o' /\ members V o' = l'.
Proof.
  intros (k & x & D). induction o as [w| |l|b IHb|l]; unfold members in *; cbn [inner] in *; try discriminate D; intros E.
  - cbn [within level]. cbv zeta. rewrite E. cbn. eexists. split; reflexivity.
  - destruct (IHb D E) as (o' & A & B). cbn [within]. rewrite A. cbn. eexists. split; [reflexivity|exact B].
  - cbn [within level]. cbv zeta. rewrite E. cbn. eexists. split; reflexivity.
Qed.
Lemma no_base (kvs : settings) b : (forall p v, In (p, v) kvs -> ~ names_wrapped (Sel b) p) -> new_base kvs b = b /\ others kvs = kvs.
Proof.
  intros H. assert (N : forall kv, In kv kvs -> is_base (fst kv) = false).
  { intros [p v] I. destruct (is_base p) eqn:B; [|exact B]. exfalso. apply (H p v I). destruct p as [|k [|? ?]]; try discriminate B. cbn in B. apply String.eqb_eq in B. subst.
    exists [], b. split; [reflexivity|constructor]. }
  clear H. unfold new_base, others. split.
  - destruct (find (fun kv => is_base (fst kv)) kvs) as [kv|] eqn:F; [|reflexivity]. apply find_some in F as [I B]. rewrite (N kv I) in B. discriminate.
  - induction kvs as [|kv kvs IH]; [reflexivity|]. cbn. rewrite (N kv (or_introl eq_refl)). cbn. f_equal. apply IH. intros kv' I. apply N. now right.
Qed.
Lemma set_many_step n (kvs : settings) o : (forall p v, In (p, v) kvs -> ~ names_wrapped o p) -> set_many (S n) kvs o = within (level (set_many n) kvs) o.
Proof.
  intros H. destruct o as [w| |l|b|l]; try reflexivity. destruct (no_base kvs b H) as [A B]. cbn [set_many]. now rewrite A, B.
Qed.

Lemma many_walk : forall n (kvs : settings) o, kvs <> [] -> pairwise_apart kvs ->
  (forall p v, In (p, v) kvs -> p <> [] /\ length p <= n /\ ~ names_wrapped o p /\ exists x, walk o p = Some x) ->
  exists o', set_many n kvs o = Ok o' /\ (forall p v r, In (p, v) kvs -> walk o' (p ++ r) = walk v r) /\
    (forall q, (forall p v, In (p, v) kvs -> apart p q) -> walk o' q = walk o q).
Proof.
  induction n as [|n IH]; intros kvs o NE PA H.
  { destruct kvs as [|[p v] kvs]; [congruence|]. destruct (H p v (or_introl eq_refl)) as (A & B & _). destruct p; [congruence|cbn in B; lia]. }
  rewrite set_many_step by (intros p v I; now destruct (H p v I) as (_ & _ & A & _)).
  set (l := members V o).
  assert (HM : forall k r v, In (k :: r, v) kvs -> exists x, dict_get String.eqb k l = Some x).
  { intros k r v I. destruct (H _ _ I) as (_ & _ & _ & x & W). cbn [walk] in W. fold l in W. destruct (dict_get String.eqb k l) as [z|]; [eauto|discriminate]. }
  destruct (direct_spec kvs l HM) as (l1 & E1 & D1).
  (* a name with further names is not set itself *)
  assert (NB : forall k h r v w, In (k :: h :: r, v) kvs -> In ([k], w) kvs -> False).
  { intros k h r v w I J. destruct (pairwise_In _ _ _ _ _ PA J I) as [[E _]|A]; [discriminate|]. apply (apart_prefix [k] (h :: r)). exact A. }
  assert (SUB : forall k, In k (heads kvs) -> exists x x', dict_get String.eqb k l = Some x /\ set_many n (tails k kvs) x = Ok x' /\
     (forall p v r, In (p, v) (tails k kvs) -> walk x' (p ++ r) = walk v r) /\ (forall q, (forall p v, In (p, v) (tails k kvs) -> apart p q) -> walk x' q = walk x q)).
  { intros k I. apply heads_In in I as (h & r & v & I). destruct (HM _ _ _ I) as [x D].
    destruct (IH (tails k kvs) x) as (x' & A & B & C).
    - intros Q. assert (J : In (h :: r, v) (tails k kvs)) by (apply tails_In; split; [discriminate|exact I]). rewrite Q in J. destruct J.
    - now apply tails_pairwise.
    - intros p w J. apply tails_In in J as [NP J]. destruct (H _ _ J) as (_ & LN & NW & y & W). split; [exact NP|]. split; [cbn in LN; lia|]. split.
      + intros Q. apply NW. eapply names_cons; eauto.
      + exists y. cbn [walk] in W. fold l in W. now rewrite D in W.
    - exists x, x'. auto. }
  destruct (nested_spec (set_many n) kvs (heads kvs) l1 (heads_NoDup kvs)) as (l' & E2 & N1 & N2).
  { intros k I. destruct (SUB k I) as (x & x' & D & S & _). exists x, x'. split; [|exact S]. apply heads_In in I as (h & r & v & I).
    destruct (D1 k) as [(w & J & _)|[_ G]]; [destruct (NB _ _ _ _ _ I J)|]. now rewrite G. }
  destruct (within_level (set_many n) kvs o l') as (o' & EO & MO).
  { destruct kvs as [|[p v] kvs]; [congruence|]. destruct (H p v (or_introl eq_refl)) as (A & _). destruct p as [|k r]; [congruence|]. exists k. eapply HM. left. reflexivity. }
  { fold l. rewrite E1. exact E2. }
  (* what is found under a name that leads further *)
  assert (GH : forall k, In k (heads kvs) -> exists x x', dict_get String.eqb k l = Some x /\ dict_get String.eqb k l' = Some x' /\
     (forall p v r, In (p, v) (tails k kvs) -> walk x' (p ++ r) = walk v r) /\ (forall q, (forall p v, In (p, v) (tails k kvs) -> apart p q) -> walk x' q = walk x q)).
  { intros k I. destruct (N1 k I) as (x & x' & A & B & C). destruct (SUB k I) as (y & y' & A' & B' & C' & D'). assert (x = y).
    { apply heads_In in I as (h & r & v & I). destruct (D1 k) as [(w & J & _)|[_ G]]; [destruct (NB _ _ _ _ _ I J)|]. rewrite G in A. congruence. }
    subst y. rewrite B in B'. injection B' as <-. exists x, x'. auto. }
  exists o'. split; [exact EO|]. split.
  - intros p v r I. destruct p as [|k p]; [now destruct (H _ _ I)|]. destruct p as [|h p].
    + cbn [app walk]. rewrite MO. assert (NH : ~ In k (heads kvs)) by (intros J; apply heads_In in J as (h & s & w & J); exact (NB _ _ _ _ _ J I)).
      rewrite (N2 k NH). destruct (D1 k) as [(w & J & G)|[Q _]]; [|destruct (Q v I)]. rewrite G. destruct (pairwise_In _ _ _ _ _ PA I J) as [[_ ->]|A]; [reflexivity|].
      destruct (apart_prefix [k] []). exact A.
    + assert (IH' : In k (heads kvs)) by (apply heads_In; eauto). destruct (GH k IH') as (x & x' & A & B & C & _).
      change (walk o' (k :: ((h :: p) ++ r)) = walk v r). cbn [walk]. rewrite MO, B. apply C. apply tails_In. split; [discriminate|exact I].
  - intros q A. destruct q as [|h q].
    { destruct kvs as [|[p v] kvs]; [congruence|]. destruct (apart_nil p). exact (A p v (or_introl eq_refl)). }
    cbn [walk]. rewrite MO. fold l. destruct (in_dec string_dec h (heads kvs)) as [I|NI].
    + destruct (GH h I) as (x & x' & B & C & _ & D). rewrite B, C. apply D. intros p v J. apply tails_In in J as [_ J]. apply (apart_cons h). now apply (A _ v).
    + rewrite (N2 h NI). destruct (D1 h) as [(w & J & _)|[_ G]]; [|now rewrite G]. destruct (apart_prefix [h] q). exact (A _ _ J).
Qed.
Lemma path_bound (kvs : settings) p v : In (p, v) kvs -> length p <= S (list_max (map (fun kv => length (fst kv)) kvs)).
Proof.
  intros I. apply Nat.le_le_succ_r. assert (F : Forall (fun k => k <= list_max (map (fun kv : list string * obj => length (fst kv)) kvs)) (map (fun kv : list string * obj => length (fst kv)) kvs)) by (apply list_max_le; lia).
  rewrite Forall_forall in F. apply F. apply in_map_iff. exists (p, v). split; [reflexivity|exact I].
Qed.
Lemma within_at (f g : obj -> res obj) o : f (inner o) = g (inner o) -> within f o = within g o.
Proof. induction o as [w| |l|b IHb|l]; cbn; intros E; try exact E. now rewrite IHb. Qed.
Lemma many_one : forall p (v o : obj), p <> [] -> ~ names_wrapped o p -> set_many (S (length p)) [(p, v)] o = set p v o.
Proof.
  induction p as [|k p IH]; intros v o NE N; [congruence|]. clear NE.
  rewrite set_many_step by (intros q w [E|[]]; injection E as <- <-; exact N). rewrite set_within by now apply not_base. apply within_at.
  assert (L : forall l, l = members V o -> (l1 <- direct [(k :: p, v)] l ;; nested (set_many (length (k :: p))) (heads [(k :: p, v)]) [(k :: p, v)] l1) =
     match dict_get String.eqb k l with None => Err ValueError | Some x => x' <- (match (match p with [] => None | _ => Some (set p v) end) with None => Ok v | Some f => f x end) ;; Ok (dict_set String.eqb k x' l) end).
  { intros l El. cbn [direct]. destruct (dict_get String.eqb k l) as [x|] eqn:D; [|reflexivity]. destruct p as [|h p]; [reflexivity|]. cbn [bind].
    change (heads [(k :: h :: p, v)]) with [k]. cbn [nested]. rewrite D. unfold tails. cbn [flat_map fst snd app]. rewrite String.eqb_refl. cbv iota. cbn [app]. change (length (k :: h :: p)) with (S (length (h :: p))).
    rewrite IH; [reflexivity|discriminate|]. intros Q. apply N. eapply names_cons; [|exact Q]. now rewrite <- El. }
  unfold level, set_first. unfold members in L. destruct (inner o) as [w| |l|b|l] eqn:I; try reflexivity; cbv zeta; now rewrite (L l eq_refl).
Qed.
End Facts.
Arguments pairwise_apart {V} kvs.

(** ** Theorems *)
(** Parameters that can be read and do not contain one another: one call sets them all, each to its value, and nothing else, in whatever order they are given. *)
Theorem C234_together : forall V (o : obj V) kvs, kvs <> [] -> pairwise_apart kvs ->
  (forall p v, In (p, v) kvs -> p <> [] /\ ~ names_wrapped o p /\ exists x, at_path o p x) ->
  exists o', set_params kvs o = Ok o' /\ (forall p v r y, In (p, v) kvs -> (at_path o' (p ++ r) y <-> at_path v r y)) /\
    (forall q y, (forall p v, In (p, v) kvs -> apart p q) -> (at_path o' q y <-> at_path o q y)).
Proof.
  intros V o kvs NE PA H. destruct (many_walk V (S (list_max (map (fun kv => length (fst kv)) kvs))) kvs o NE PA) as (o' & E & A & B).
  { intros p v I. destruct (H p v I) as (P & N & x & W). split; [exact P|]. split; [now apply (path_bound V kvs p v)|]. split; [exact N|]. exists x. now apply walk_iff. }
  exists o'. split; [exact E|]. split.
  - intros p v r y I. rewrite !walk_iff, (A p v r I). reflexivity.
  - intros q y Q. rewrite !walk_iff, (B q Q). reflexivity.
Qed.

(** With a single parameter this is the setting of C229. *)
Theorem C234_one : forall V (o : obj V) p v, p <> [] -> ~ names_wrapped o p -> set_params [(p, v)] o = set p v o.
Proof. intros V o p v NE N. unfold set_params. cbn [map fst list_max fold_right]. rewrite Nat.max_0_r. now apply many_one. Qed.

(** A step of a pipeline gets a new estimator and the new estimator a parameter: the parameter is set on the new estimator, whichever is given first. *)
Theorem C234_replaced : forall V (steps l l' : list (string * obj V)) step k x v kvs,
  dict_get String.eqb step steps = Some (Sel (Est l)) -> dict_get String.eqb k l' = Some x -> k <> "base_estimator" ->
  (kvs = [([step; "base_estimator"], Est l'); ([step; k], v)] \/ kvs = [([step; k], v); ([step; "base_estimator"], Est l')]) ->
  set_params kvs (Pipe steps) = Ok (Pipe (dict_set String.eqb step (Sel (Est (dict_set String.eqb k v l'))) steps)).
Proof.
  intros V steps l l' step k x v kvs D K NK H. assert (NB : is_base [k] = false) by (cbn; now apply String.eqb_neq).
  assert (T : tails step kvs = map (fun kv : list string * obj V => (List.tl (fst kv), snd kv)) kvs) by (destruct H as [-> | ->]; unfold tails; cbn [flat_map fst snd]; rewrite String.eqb_refl; reflexivity).
  assert (HD : heads kvs = [step]).
  { destruct H as [-> | ->]; unfold heads; cbn [flat_map fst app rev]; cbn [nodup]; destruct (in_dec string_dec step [step]) as [I|N]; try reflexivity; destruct N; now left. }
  assert (DI : direct kvs steps = Ok steps) by (destruct H as [-> | ->]; cbn [direct]; rewrite ?D; cbn [direct]; rewrite ?D; reflexivity).
  assert (M : list_max (map (fun kv => length (fst kv)) kvs) = 2) by (destruct H as [-> | ->]; reflexivity).
  unfold set_params. rewrite M. set (sub := @set_many V 2). assert (S : sub (tails step kvs) (Sel (Est l)) = Ok (Sel (Est (dict_set String.eqb k v l')))).
  { unfold sub. rewrite T. clear sub HD DI M T. change (@set_many V 2) with (fun (kvs : list (list string * obj V)) (o : obj V) => match o with
             | Sel b => r <- within (level (set_many 1) (others kvs)) (new_base kvs b) ;; Ok (Sel r)
             | _ => level (set_many 1) kvs o
             end). cbv beta iota. assert (O : others (map (fun kv : list string * obj V => (List.tl (fst kv), snd kv)) kvs) = [([k], v)] /\ new_base (map (fun kv : list string * obj V => (List.tl (fst kv), snd kv)) kvs) (Est l) = Est l').
    { destruct H as [-> | ->]; unfold others, new_base; cbn [map fst snd List.tl filter find]; rewrite NB; split; reflexivity. }
    destruct O as [-> ->]. cbn [within level direct]. cbv zeta. rewrite K. cbn. reflexivity. }
  change (set_many 3 kvs (Pipe steps)) with (level sub kvs (Pipe steps)). unfold level. cbv zeta. rewrite DI. cbn [bind]. rewrite HD. cbn [nested]. rewrite D, S. reflexivity.
Qed.

(** Two parameters of one step and one of another; a step that gets a new estimator. *)
Example C234_ex :
  let pipe := Pipe [("standardscaler", Sel (Est [("with_mean", Leaf 1)])); ("svc", Sel (Est [("C", Leaf 1); ("kernel", Leaf 7)]))] in
  let kvs := [(["svc"; "kernel"], Leaf 8); (["standardscaler"; "with_mean"], Leaf 0); (["svc"; "C"], Leaf 10)] in
  kvs <> [] /\ pairwise_apart kvs /\ (forall p v, In (p, v) kvs -> p <> [] /\ ~ names_wrapped pipe p /\ exists x, at_path pipe p x) /\
  set_params kvs pipe = Ok (Pipe [("standardscaler", Sel (Est [("with_mean", Leaf 0)])); ("svc", Sel (Est [("C", Leaf 10); ("kernel", Leaf 8)]))]) /\
  set_params [(["svc"; "alpha"], Leaf 5); (["svc"; "base_estimator"], Est [("alpha", Leaf 2); ("tol", Leaf 3)])] pipe =
    Ok (Pipe [("standardscaler", Sel (Est [("with_mean", Leaf 1)])); ("svc", Sel (Est [("alpha", Leaf 5); ("tol", Leaf 3)]))]) /\
  set_params [(["svc"; "gamma"], Leaf 5); (["svc"; "C"], Leaf 2)] pipe = Err ValueError.
Proof.
  cbv zeta. split; [discriminate|]. split; [|split; [|split; [|split]]]; try reflexivity.
  - repeat constructor; cbn; intros E; discriminate E.
  - intros p v [E|[E|[E|[]]]]; injection E as <- <-; (split; [discriminate|]); (split; [|eexists; apply walk_iff; reflexivity]).
    all: intros (q & b & E & _); destruct q as [|q0 [|q1 [|? ?]]]; discriminate E.
Qed.
