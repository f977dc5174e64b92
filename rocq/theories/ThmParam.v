(** C196: every parameter of an estimator matters. C197: a parameter set on a fitted estimator waits for the next fit. *)
From Coq Require Import Reals ZArith QArith String List Bool Arith Lia Lra.
From Verif Require Import Np Labels UtilsModel RMat DataModel MapModel GenModel ParamModel MapSpec ThmMap HistModel ThmHist.
Import ListNotations.
Local Open Scope string_scope.
Local Open Scope list_scope.
Local Open Scope nat_scope.

(** ** Specification. *)
(** What a user sees of a call: the value it returns (the last one it computed), or the exception. *)
Definition visible {V} (r : res (list V)) : res (option V) := match r with Ok (v :: _) => Ok (Some v) | Ok [] => Ok None | Err e => Err e end.
(** The parameter makes a difference: for some meaning of the computations, two objects made with parameters that differ only in [q] can be told apart,
    by what their methods return or by an attribute that is not a parameter. *)
Definition matters (c : cls) (q : string) : Prop :=
  exists (V : Type) (comp : nat -> list V -> list V -> res V) test count k d (p : @obj V) v h,
    let x := steps comp test count c (new c k d (set p q v)) h in let y := steps comp test count c (new c k d p) h in
    map visible (snd x) <> map visible (snd y) \/ (exists a, ~ In a (c_params c) /\ fst x a <> fst y a).
(** It makes none: whatever the lines compute, whatever is called, with whatever arguments and whatever parameters set meanwhile. *)
Definition ignored (c : cls) (q : string) : Prop :=
  forall (V : Type) (comp : nat -> list V -> list V -> res V) test count k d (p : @obj V) v h,
    let x := steps comp test count c (new c k d (set p q v)) h in let y := steps comp test count c (new c k d p) h in
    map visible (snd x) = map visible (snd y) /\ (forall a, a <> q -> fst x a = fst y a).

(** ** A parameter no line reads. *)
Definition but (q a : string) : bool := negb (String.eqb q a).
Definition unread (q : string) (ms : list (string * list stmt)) : bool :=
  forallb (fun m => match chk_all (but q) (snd m) [] with Some _ => true | None => false end) ms.
Section Unread.
  Context {V : Type}.
  Variable comp : nat -> list V -> list V -> res V.
  Variable test : nat -> list V -> list V -> bool.
  Variable count : nat -> list V -> list V -> nat.
  Lemma step_but c q ms x o1 o2 : unread q ms = true ->
    match x with Call m _ => method (c_fits c ++ c_others c) m = method ms m | SetParam _ _ => True end -> agree (but q) [] o1 o2 ->
    snd (step comp test count c o1 x) = snd (step comp test count c o2 x) /\ agree (but q) [] (fst (step comp test count c o1 x)) (fst (step comp test count c o2 x)).
  Proof.
    intros U E A. destruct x as [m args|q' v]; cbn [step].
    - rewrite E. destruct (method ms m) as [b|] eqn:M; [|now split]. apply method_In in M as (n & M). unfold unread in U. rewrite forallb_forall in U. specialize (U _ M). cbn [snd] in U.
      destruct (chk_all (but q) b []) as [D|] eqn:C; [|easy]. destruct (chk_sound comp test count (but q) b [] D o1 o2 args C A) as (_ & R & A1 & _). now split.
    - destruct (mem q' (c_params c)); cbn [fst snd]; split; auto. eapply agree_sub; [|apply agree_set, A]. intros; now right.
  Qed.
  Lemma steps_but c q h : unread q (c_fits c ++ c_others c) = true -> forall o1 o2, agree (but q) [] o1 o2 ->
    snd (steps comp test count c o1 h) = snd (steps comp test count c o2 h) /\ agree (but q) [] (fst (steps comp test count c o1 h)) (fst (steps comp test count c o2 h)).
  Proof.
    intros U. induction h as [|x h IH]; intros o1 o2 A; cbn [steps]; [now split|].
    destruct (step_but c q (c_fits c ++ c_others c) x o1 o2 U) as (R & A1); auto; [now destruct x|].
    destruct (step comp test count c o1 x) as [p1 r1], (step comp test count c o2 x) as [p2 r2]. cbn [fst snd] in *. subst. destruct (IH p1 p2 A1) as (E & A2).
    destruct (steps comp test count c p1 h), (steps comp test count c p2 h). cbn [fst snd] in *. now rewrite E.
  Qed.
End Unread.
Lemma set_agree {V} (o : @obj V) q v : agree (but q) [] (set o q v) o.
Proof. intros a [[]|Ha]. unfold but in Ha. apply negb_true_iff in Ha. unfold set. now rewrite Ha. Qed.
Lemma unread_ignored c q : unread q (c_fits c ++ c_others c) = true -> c_derived c = [] -> ignored c q.
Proof.
  intros U ED V comp test count k d p v h. cbv zeta.
  destruct (steps_but comp test count c q h U (new c k d (set p q v)) (new c k d p)) as (E & A).
  - intros a [[]|Ha]. unfold new. rewrite ED. cbn [mem existsb]. destruct (mem a (c_params c)); auto. apply set_agree. now right.
  - rewrite E. split; auto. intros a Ha. apply A. right. unfold but. apply negb_true_iff. apply String.eqb_neq. congruence.
Qed.

(** ** A parameter some line reads: follow it through the computations, which add up all they are given. *)
Definition t_sum (l : list N) : N := fold_right N.add 0%N l.
Definition t_comp (n : nat) (tr vs : list N) : res N := Ok (t_sum vs + t_sum tr + N.of_nat n)%N.
Definition t_test (br : bool) (n : nat) (tr vs : list N) : bool := if N.odd (t_sum vs) then negb br else br.
Definition t_count (n : nat) (tr vs : list N) : nat := if N.odd (t_sum vs) then 2 else 1.
Definition t_d (c : cls) (p : @obj N) (a : string) : N := t_sum (map (fun q => match p q with Some b => b | None => 0%N end) (c_params c)).
Definition t_p : @obj N := fun _ => Some 0%N.
(** Call every method that fits, and after each all others; all branches one way or all the other way. *)
Definition t_h (c : cls) : list (@op N) := concat (map (fun f => Call (fst f) [] :: map (fun m => Call (fst m) []) (c_others c)) (c_fits c)).
Definition t_run (c : cls) (br : bool) (p : @obj N) := steps t_comp (t_test br) t_count c (new c (fun _ => 0%N) (t_d c) p) (t_h c).
Definition mark (r : res (option N)) : N := match r with Ok None => 0 | Ok (Some v) => 2 + v | Err _ => 1 end%N.
Definition attr (o : option N) : N := match o with None => 0 | Some v => 1 + v end%N.
Definition t_seen (c : cls) (br : bool) (p : @obj N) : list N :=
  let r := t_run c br p in map mark (map visible (snd r)) ++ map (fun a => attr (fst r a)) (filter (fun a => negb (mem a (c_params c))) (writes c)).
Definition differs (c : cls) (q : string) : bool :=
  existsb (fun br => negb (if list_eq_dec N.eq_dec (t_seen c br (set t_p q 1%N)) (t_seen c br t_p) then true else false)) [true; false].
Lemma differs_matters c q : differs c q = true -> matters c q.
Proof.
  intros H. apply existsb_exists in H as (br & _ & H).
  exists N, t_comp, (t_test br), t_count, (fun _ => 0%N), (t_d c), t_p, 1%N, (t_h c). cbv zeta. fold (t_run c br (set t_p q 1%N)) (t_run c br t_p).
  destruct (list_eq_dec N.eq_dec (t_seen c br (set t_p q 1%N)) (t_seen c br t_p)) as [E|E]; [easy|]. clear H.
  set (r := t_run c br (set t_p q 1%N)) in *. set (r' := t_run c br t_p) in *. unfold t_seen in E. fold r r' in E. cbv zeta in E.
  destruct (list_eq_dec N.eq_dec (map mark (map visible (snd r))) (map mark (map visible (snd r')))) as [E1|E1]; [|left; congruence].
  right. rewrite E1 in E. destruct (existsb (fun a => negb (N.eqb (attr (fst r a)) (attr (fst r' a)))) (filter (fun a => negb (mem a (c_params c))) (writes c))) eqn:X.
  - apply existsb_exists in X as (a & Ha & X). exists a. apply filter_In in Ha as (_ & Ha). apply negb_true_iff in Ha, X. apply N.eqb_neq in X. split; [now apply mem_not|congruence].
  - exfalso. apply E. f_equal. apply map_ext_in. intros a Ha.
    destruct (N.eqb (attr (fst r a)) (attr (fst r' a))) eqn:Y; [now apply N.eqb_eq|]. exfalso. rewrite <- not_true_iff_false in X. apply X. apply existsb_exists. exists a. split; auto. now rewrite Y.
Qed.

(** ** C196. *)
(** The parameters that do nothing. *)
Definition without_effect : list (string * string) := [("MultiLinearMongeAlignmentAdapter", "test_time"); ("JCPOTLabelPropAdapter", "verbose")].
Definition exempt (l : list (string * string)) (c : cls) (q : string) : bool := existsb (fun e => String.eqb (fst e) (c_name c) && String.eqb (snd e) q) l.
Lemma exempt_In l c q : exempt l c q = true <-> In (c_name c, q) l.
Proof.
  unfold exempt. rewrite existsb_exists. split.
  - intros ((a & b) & H & E). apply andb_true_iff in E as (E1 & E2). apply String.eqb_eq in E1, E2. cbn in *. now subst.
  - intros H. exists (c_name c, q). split; auto. cbn. now rewrite !String.eqb_refl.
Qed.
Definition estimators : list cls := c_kliep :: c_gradual :: shallow.
Lemma all_differ : forallb (fun c => forallb (fun q => exempt without_effect c q || differs c q) (c_params c)) estimators = true.
Proof. vm_compute. reflexivity. Qed.

(** Every parameter of every shallow estimator, adapter, subsampler and selector can make a difference, but for two. *)
Theorem C196_matters : forall c q, In c estimators -> In q (c_params c) -> ~ In (c_name c, q) without_effect -> matters c q.
Proof.
  intros c q Hc Hq N. apply differs_matters. pose proof all_differ as H. rewrite forallb_forall in H. specialize (H c Hc). rewrite forallb_forall in H. specialize (H q Hq).
  apply orb_true_iff in H as [H|H]; auto. now apply exempt_In in H.
Qed.
(** test_time ("if True, the estimator can be updated at test time to map new target domains unseen during training") does nothing at all. *)
Theorem C196_test_time_refuted : In "test_time" (c_params c_mlm) /\ ignored c_mlm "test_time".
Proof. split; [vm_compute; tauto|]. now apply unread_ignored. Qed.
(** verbose of JCPOTLabelPropAdapter does nothing at all. *)
Theorem C196_verbose_refuted : In "verbose" (c_params c_jcpot) /\ ignored c_jcpot "verbose".
Proof. split; [vm_compute; tauto|]. now apply unread_ignored. Qed.

(** The new target domain is refused whatever test_time is; with True the documentation promises that it is mapped. *)
Theorem C196_unseen_domain_refuted : exists mappings X sda, usable true (a_len X) sda /\
  forall test_time, mlm_transform_call test_time mappings X sda = Err KeyError.
Proof.
  exists [(1%Z, fun x => x); ((-2)%Z, fun x => x)], (mkArr DFloat [1] [[VNum 3]; [VNum 5]]), (SDArr [-2; -3]%Z). split.
  - split; [cbn; lia|]. split; [reflexivity|discriminate].
  - intros test_time. vm_compute. reflexivity.
Qed.
(** center ("center of the distribution") of make_shifted_datasets does not move the data. *)
Theorem C196_center_refuted : forall Gen rand randn choice normal pdf2 pdf1 n_s n_t shift noise label ratio mean sigma params gamma center center' center_cov_shift standardize (g : Gen),
  make_shifted_call rand randn choice normal pdf2 pdf1 n_s n_t shift noise label ratio mean sigma params gamma center center_cov_shift standardize g
  = make_shifted_call rand randn choice normal pdf2 pdf1 n_s n_t shift noise label ratio mean sigma params gamma center' center_cov_shift standardize g.
Proof. reflexivity. Qed.

(** sigma_ch ("std for the gaussian on the channels") of make_variable_frequency_dataset does nothing. *)
Theorem C196_sigma_ch_refuted : forall Gen choice uniform_half noise3 normal1 bandpass rfft irfft n_s n_t channels n_frequencies n_classes delta_f band_size sigma_freq sigma_ch sigma_ch' (g : Gen),
  make_frequencies_call choice uniform_half noise3 normal1 bandpass rfft irfft n_s n_t channels n_frequencies n_classes delta_f band_size sigma_freq sigma_ch g
  = make_frequencies_call choice uniform_half noise3 normal1 bandpass rfft irfft n_s n_t channels n_frequencies n_classes delta_f band_size sigma_freq sigma_ch' g.
Proof. reflexivity. Qed.

(** ** C197. *)
(** Calls of methods that do not fit, and parameters being set to anything. *)
Definition only_reads (c : cls) {V} (x : @op V) : Prop := match x with Call m _ => method (c_fits c) m = None | SetParam _ _ => True end.
(** The parameters read after fitting. *)
Definition read_later : list (string * string) :=
  [("GradualEstimator", "base_estimator"); ("CORALAdapter", "assume_centered"); ("NearestNeighborReweightAdapter", "laplace_smoothing");
   ("KMMReweightAdapter", "kernel"); ("KMMReweightAdapter", "gamma"); ("KMMReweightAdapter", "degree"); ("KMMReweightAdapter", "coef0"); ("KMMReweightAdapter", "smooth_weights");
   ("TransferComponentAnalysisAdapter", "kernel"); ("TransferJointMatchingAdapter", "kernel"); ("JDOTClassifier", "base_estimator"); ("DASVMClassifier", "base_estimator")].
Lemma later_ok : forallb (fun c => forallb (fun q => exempt read_later c q || unread q (c_others c)) (c_params c)) estimators = true.
Proof. vm_compute. reflexivity. Qed.
Definition calls {V} (h : list (@op V)) : list (@op V) := filter (fun x => match x with Call _ _ => true | SetParam _ _ => false end) h.

(** Setting such a parameter on an object, whatever its state, changes no result of the methods that do not fit, however often they are called afterwards. *)
Theorem C197_waits : forall c q, In c estimators -> In q (c_params c) -> ~ In (c_name c, q) read_later ->
  forall (V : Type) (comp : nat -> list V -> list V -> res V) test count o v h, Forall (only_reads c) h ->
    snd (steps comp test count c (set o q v) h) = snd (steps comp test count c o h).
Proof.
  intros c q Hc Hq N V comp test count o v h Hh. pose proof later_ok as H. rewrite forallb_forall in H. specialize (H c Hc). rewrite forallb_forall in H. specialize (H q Hq).
  apply orb_true_iff in H as [H|U]; [now apply exempt_In in H|].
  assert (A : agree (but q) [] (set o q v) o) by apply set_agree. revert A. generalize (set o q v) as o1. revert o. clear Hq N.
  induction Hh as [|x h Hx Hh IH]; intros o o1 A; cbn [steps]; auto.
  assert (E : match x with Call m _ => method (c_fits c ++ c_others c) m = method (c_others c) m | SetParam _ _ => True end).
  { destruct x as [m args|]; auto. cbn in Hx. induction (c_fits c) as [|[n b] l IHl]; cbn in *; auto. destruct (String.eqb n m); [easy|auto]. }
  destruct (step_but comp test count c q (c_others c) x o1 o U E A) as (R & A1).
  destruct (step comp test count c o1 x) as [p1 r1], (step comp test count c o x) as [p2 r2]. cbn [fst snd] in *. subst. specialize (IH p2 p1 A1).
  destruct (steps comp test count c p1 h), (steps comp test count c p2 h). cbn [snd] in *. now rewrite IH.
Qed.
(** So a whole block of parameters set on a fitted object is as if it had not been set, until something is fitted. *)
Theorem C197_until_fit : forall c, In c estimators -> forall (V : Type) (comp : nat -> list V -> list V -> res V) test count h o, Forall (only_reads c) h ->
  (forall q v, In (SetParam q v) h -> In q (c_params c) /\ ~ In (c_name c, q) read_later) ->
  filter (fun r => match r with Ok [] => false | _ => true end) (snd (steps comp test count c o h))
  = filter (fun r => match r with Ok [] => false | _ => true end) (snd (steps comp test count c o (calls h))).
Proof.
  intros c Hc V comp test count h. induction h as [|x h IH]; intros o Hh Hq; auto. inversion_clear Hh.
  assert (Hq' : forall q v, In (SetParam q v) h -> In q (c_params c) /\ ~ In (c_name c, q) read_later) by (intros; eapply Hq; right; eauto).
  destruct x as [m args|q v].
  - cbn [calls filter]. fold (calls h). cbn [steps]. destruct (step comp test count c o (Call m args)) as [o1 r]. specialize (IH o1 H0 Hq').
    destruct (steps comp test count c o1 h), (steps comp test count c o1 (calls h)). cbn [snd filter] in *. destruct r as [[|]|]; now rewrite IH.
  - destruct (Hq q v (or_introl eq_refl)) as (Q1 & Q2). cbn [calls filter]. fold (calls h). rewrite <- (IH o H0 Hq').
    rewrite <- (C197_waits c q Hc Q1 Q2 V comp test count o v h H0). cbn [steps step]. rewrite (proj2 (mem_In _ _) Q1). destruct (steps comp test count c (set o q v) h). reflexivity.
Qed.
(** assume_centered set on a fitted CORALAdapter changes what it returns for the same data: targets are not centred any more. *)
Theorem C197_coral_refuted : exists (Xt Z : mat), coral_map_target false 2 Xt Z 0 0 = 3%R /\ coral_map_target true 2 Xt Z 0 0 = 5%R.
Proof. exists (fun i _ => match i with 0 => 1 | _ => 3 end)%R, (fun _ _ => 5%R). split; unfold coral_map_target, MapModel.col_mean; cbn; lra. Qed.
(** kernel set on a fitted TransferComponentAnalysisAdapter (or TransferJointMatchingAdapter): the projection [V] belongs to one kernel and is applied to the
    values of another. [kern]: the kernel at fit; [kern']: the one set afterwards. *)
Theorem C197_kernel_refuted : exists (kern kern' : R -> R -> R) rows_eqb s t V X sda,
  project (block_kernel R kern s t) V = [[1]; [2]]%R /\
  kernel_transform R kern rows_eqb false s t V X sda = Ok [[5]]%R /\ kernel_transform R kern' rows_eqb false s t V X sda = Ok [[6]]%R.
Proof.
  exists Rmult, (fun a b => 1 + a * b)%R, (fun a b => false), [1%R], [2%R], [[1; 0]]%R, [5%R], (SDArr [-2]%Z). split; [|split].
  - cbn. repeat f_equal; lra.
  - cbn. do 3 f_equal. lra.
  - cbn. do 3 f_equal. lra.
Qed.
(** The examples: what the classes are, that the table of exceptions is exact, and that a set parameter counts once something is fitted. *)
Example C196_ex : length estimators = 32 /\ length (concat (map c_params estimators)) = 128 /\ matters c_mlm "reg" /\ matters c_tca "mu" /\ matters c_kliep "n_centers".
Proof. split; [reflexivity|]. split; [vm_compute; reflexivity|]. split; [|split]; apply differs_matters; vm_compute; reflexivity. Qed.
Example C197_ex : forallb (fun e => existsb (fun c => String.eqb (fst e) (c_name c) && mem (snd e) (c_params c) && negb (unread (snd e) (c_others c))) estimators) read_later = true.
Proof. vm_compute. reflexivity. Qed.
