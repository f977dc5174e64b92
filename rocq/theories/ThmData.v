(** Theorems C23-C27, C76, C77: datasets. *)
From Coq Require Import String List ZArith QArith Bool Arith Lia.
From Verif Require Import Np NpFacts Labels Spec SpecFacts UtilsModel UtilsSpec UtilsProofs UtilsProofs2 SelectProofs2
  PipeModel PipeProofs DataModel DataSpec DataProofs.
Import ListNotations.
Local Open Scope nat_scope.
Local Open Scope list_scope.

(** Domain names and data found under them. *)
Definition found {R} (s : @dataset R) (names : list string) (kds : list (nat * @dom R)) : Prop :=
  Forall2 (fun n kd => known s n (fst kd) (snd kd)) names kds.

Definition all_aligned {R} (kds : list (nat * @dom R)) : Prop := Forall (fun kd => aligned (snd kd)) kds.

Lemma Forall2_length {A B} (P : A -> B -> Prop) l1 l2 : Forall2 P l1 l2 -> length l1 = length l2.
Proof. induction 1; simpl; auto. Qed.

Lemma pack_targets_any {R} (s : @dataset R) b names kds : inv s -> found s names kds -> all_aligned kds -> forall st a,
  exists y, length y = length (concat (map (fun kd => d_X (snd kd)) kds)) /\
  pack_targets s b st names a = Ok (mkAcc
    (p_X a ++ concat (map (fun kd => d_X (snd kd)) kds)) (p_y a ++ y)
    (p_sd a ++ concat (map (fun kd => repeat (- Z.of_nat (fst kd))%Z (length (d_X (snd kd)))) kds))
    (dict_update String.eqb (p_names a) (tgt_labels names kds))).
Proof.
  intros I F. induction F as [|n [k d] names kds Hn F IH]; intros Al st a; cbn [pack_targets].
  - exists []. split; auto. cbn. rewrite !app_nil_r. now destruct a.
  - destruct (known_get s n k d I Hn) as [E1 E2]. rewrite E1, E2. cbn [bind].
    assert (Al' := Forall_inv Al). apply Forall_inv_tail in Al. cbn [snd] in Al'.
    assert (L : length (fst (if b then mask_target st d else (snd (labels_of d), st))) = length (d_X d)).
    { pose proof (plain_labels_length d Al') as P. rewrite <- labels_plain in P. destruct b; [|exact P].
      unfold mask_target. destruct (fst st); [apply repeat_length|]. destruct (fst (labels_of d)); cbn [fst]; auto using repeat_length. }
    destruct (if b then mask_target st d else (snd (labels_of d), st)) as [y0 st'] eqn:E0. cbn [fst] in L.
    destruct (IH Al st' (mkAcc (p_X a ++ d_X d) (p_y a ++ y0) (p_sd a ++ repeat (- Z.of_nat k)%Z (length y0)) (dict_set String.eqb n (- Z.of_nat k)%Z (p_names a)))) as [y [Ly E]].
    exists (y0 ++ y). split; [cbn [map concat snd]; rewrite !app_length; lia|].
    rewrite E. cbn [p_X p_y p_sd p_names map concat fst snd]. rewrite L, <- !app_assoc. reflexivity.
Qed.

(** ** C23 *)

(** Rows in request order, sources first; label +k / -k for the domain registered k-th; equal lengths. *)
Theorem C23_pack_layout : forall (R : Type) (s : @dataset R) srcs tgts skds tkds masking mask,
  reachable s -> found s srcs skds -> found s tgts tkds -> all_aligned skds -> all_aligned tkds ->
  srcs ++ tgts <> [] ->
  exists X y sd, pack s srcs tgts masking None RTArray None mask = Ok (PArrays X y sd) /\
    X = concat (map (fun kd => d_X (snd kd)) (skds ++ tkds)) /\
    sd = concat (map (fun kd => repeat (Z.of_nat (fst kd)) (length (d_X (snd kd)))) skds) ++
         concat (map (fun kd => repeat (- Z.of_nat (fst kd))%Z (length (d_X (snd kd)))) tkds) /\
    length y = length X /\ length sd = length X.
Proof.
  intros R s srcs tgts skds tkds masking mask Hr Fs Ft As At Hne. pose proof (inv_reachable s Hr) as I.
  unfold pack. rewrite (pack_sources_ok s srcs skds I Fs). cbn [bind p_X p_y p_sd p_names app].
  destruct (pack_targets_any s masking tgts tkds I Ft At (mask, None)
    (mkAcc (concat (map (fun kd => d_X (snd kd)) skds)) (concat (map (fun kd => plain_labels (snd kd)) skds))
       (concat (map (fun kd => repeat (Z.of_nat (fst kd)) (length (plain_labels (snd kd)))) skds))
       (dict_update String.eqb [] (src_labels srcs skds)))) as [y [Ly E]].
  rewrite E. cbn [bind p_X p_y p_sd p_names].
  replace (length srcs + length tgts =? 0) with false.
  2:{ symmetry. apply Nat.eqb_neq. rewrite <- app_length. destruct (srcs ++ tgts); [easy|discriminate]. }
  do 3 eexists. split; [reflexivity|].
  assert (Ls : map (fun kd : nat * dom => repeat (Z.of_nat (fst kd)) (length (plain_labels (snd kd)))) skds
             = map (fun kd => repeat (Z.of_nat (fst kd)) (length (d_X (snd kd)))) skds).
  { apply map_ext_in. intros kd Hkd. rewrite plain_labels_length; auto. eapply Forall_forall in As; eauto. }
  assert (Lp : length (concat (map (fun kd : nat * dom => plain_labels (snd kd)) skds)) = length (concat (map (fun kd => d_X (snd kd)) skds))).
  { clear - As. induction As; simpl; auto. rewrite !app_length, IHAs, plain_labels_length; auto. }
  assert (Lr : forall (f : nat -> Z) (l : list (nat * @dom R)), length (concat (map (fun kd => repeat (f (fst kd)) (length (d_X (snd kd)))) l))
     = length (concat (map (fun kd => d_X (snd kd)) l))).
  { intros f l. induction l as [|x l IH]; simpl; auto. now rewrite !app_length, repeat_length, IH. }
  split; [now rewrite map_app, concat_app|]. split; [now rewrite Ls|].
  rewrite Ls, !app_length, Lp, Ly, (Lr Z.of_nat), (Lr (fun k => (- Z.of_nat k)%Z)). auto.
Qed.

Theorem C23_pack_unknown_name : forall (R : Type) (s : @dataset R) srcs tgts masking rxy rt train mask,
  reachable s -> (exists n, In n (srcs ++ tgts) /\ ~ In n (map fst (ds_names s))) ->
  pack s srcs tgts masking rxy rt train mask = Err KeyError.
Proof.
  intros R s srcs tgts masking rxy rt train mask Hr [n [Hn Hu]]. pose proof (inv_reachable s Hr) as I. unfold pack.
  destruct (known_or_not s srcs I) as [[kds F]|U].
  - rewrite (pack_sources_ok s srcs kds I F). cbn [bind]. rewrite pack_targets_unknown; auto.
    exists n. split; auto. apply in_app_iff in Hn as [Hn|Hn]; auto. exfalso. apply Hu.
    clear -F Hn. induction F; [easy|]. destruct Hn as [->|Hn]; auto. destruct H as [H _].
    apply in_map_iff. exists (n, fst y). auto.
  - rewrite pack_sources_unknown by auto. reflexivity.
Qed.

Theorem C23_pack_nothing : forall (R : Type) (s : @dataset R) masking rxy rt train mask,
  pack s [] [] masking rxy rt train mask = Err ValueError.
Proof. intros R s masking [[|]|] [| | |] train mask; reflexivity. Qed.

(** pack does not check that the features and labels of a domain have the same length. *)
Example C23_misaligned_domain : exists (s : @dataset nat) X y sd,
  reachable s /\ pack s ["a"%string] [] false None RTArray None None = Ok (PArrays X y sd) /\ length y <> length X.
Proof.
  eexists. do 3 eexists. split; [exists [OAdd (mkDom [1;2;3] (Some (YInt, [VNum 0]))) (Some "a"%string)]; reflexivity|].
  split; [reflexivity|]. simpl. lia.
Qed.

Definition exA : @dom nat := mkDom [10;11] (Some (YInt, [VNum 0; VNum 1])).
Definition exB : @dom nat := mkDom [20] (Some (YFloat, [VNum (1#2)])).
Definition exC : @dom nat := mkDom [30;31] None.
Definition ex_ops : list (@op nat) := [OAdd exA (Some "a"%string); OAdd exB None; OAdd exC (Some "c"%string)].
Definition ex_ds : @dataset nat := mkDS [exA; exB; exC] [("a"%string, 1); ("_2"%string, 2); ("c"%string, 3)].
Example ex_ds_reachable : run ex_ops = Ok ex_ds.
Proof. reflexivity. Qed.

Example C23_ex : pack ex_ds ["c"%string; "a"%string] ["_2"%string; "a"%string] false None RTArray None None =
  Ok (PArrays [30;31;10;11;20;10;11]
       [VNum (inject_Z (-1)); VNum (inject_Z (-1)); VNum 0; VNum 1; VNum (1#2); VNum 0; VNum 1] [3;3;1;1;-2;-1;-1]%Z).
Proof. reflexivity. Qed.

(** ** C24 *)

(** All target rows hold the one mask value; source labels unchanged. *)
Theorem C24_target_labels_masked_partial : forall (R : Type) (s : @dataset R) srcs tgts skds tkds mask m,
  reachable s -> found s srcs skds -> found s tgts tkds -> srcs ++ tgts <> [] ->
  mask_value mask (map snd tkds) = Some m ->
  exists X y sd, pack s srcs tgts true None RTArray None mask = Ok (PArrays X y sd) /\
    rows_of is_target sd y = repeat m (length (concat (map (fun kd => d_X (snd kd)) tkds))) /\
    rows_of is_source sd y = concat (map (fun kd => plain_labels (snd kd)) skds).
Proof.
  intros R s srcs tgts skds tkds mask m Hr Fs Ft Hne Hm. pose proof (inv_reachable s Hr) as I.
  unfold pack. rewrite (pack_sources_ok s srcs skds I Fs). cbn [bind p_X p_y p_sd p_names app].
  rewrite (pack_targets_masked s tgts tkds mask m I Ft Hm). cbn [bind p_X p_y p_sd p_names].
  replace (length srcs + length tgts =? 0) with false.
  2:{ symmetry. apply Nat.eqb_neq. rewrite <- app_length. destruct (srcs ++ tgts); [easy|discriminate]. }
  do 3 eexists. split; [reflexivity|].
  assert (Pos : forall k, In k tkds -> 1 <= fst k).
  { clear -Ft. induction Ft; [easy|]. intros k [<-|Hk]; auto. destruct H as [_ [H _]]. exact H. }
  assert (Ll : length (concat (map (fun kd : nat * dom => repeat (Z.of_nat (fst kd)) (length (plain_labels (snd kd)))) skds))
             = length (concat (map (fun kd => plain_labels (snd kd)) skds))).
  { clear. induction skds as [|x l IH]; simpl; auto. now rewrite !app_length, repeat_length, IH. }
  assert (Src : forall p, rows_of p (concat (map (fun kd : nat * dom => repeat (Z.of_nat (fst kd)) (length (plain_labels (snd kd)))) skds))
                  (concat (map (fun kd => plain_labels (snd kd)) skds)) =
                concat (map (fun kd => if p (Z.of_nat (fst kd)) then plain_labels (snd kd) else []) skds)).
  { intros p. clear. induction skds as [|x l IH]; simpl; auto. rewrite rows_of_app by apply repeat_length.
    now rewrite rows_of_repeat, IH. }
  assert (Tgt : forall p, rows_of p (concat (map (fun kd : nat * dom => repeat (- Z.of_nat (fst kd))%Z (length (d_X (snd kd)))) tkds))
                  (concat (map (fun kd => repeat m (length (d_X (snd kd)))) tkds)) =
                concat (map (fun kd => if p (- Z.of_nat (fst kd))%Z then repeat m (length (d_X (snd kd))) else []) tkds)).
  { intros p. clear. induction tkds as [|x l IH]; [reflexivity|]. cbn [map concat].
    rewrite rows_of_app by (now rewrite !repeat_length). rewrite IH. f_equal.
    rewrite <- (repeat_length m (length (d_X (snd x)))) at 1. apply rows_of_repeat. }
  rewrite !rows_of_app by exact Ll. rewrite !Src, !Tgt. split.
  - rewrite (map_ext (fun kd : nat * dom => if is_target (Z.of_nat (fst kd)) then plain_labels (snd kd) else []) (fun _ => [])).
    2:{ intros kd. unfold is_target. destruct (Z.ltb_spec (Z.of_nat (fst kd)) 0); auto; lia. }
    replace (concat (map (fun _ : nat * dom => @nil val) skds)) with (@nil val) by (clear; induction skds; auto). cbn [app].
    clear -Pos. induction tkds as [|x l IH]; [reflexivity|]. cbn [map concat]. rewrite app_length, repeat_app, <- IH.
    + f_equal. unfold is_target. specialize (Pos x (or_introl eq_refl)). destruct (Z.ltb_spec (- Z.of_nat (fst x)) 0); auto; lia.
    + intros k Hk. apply Pos. now right.
  - rewrite (map_ext (fun kd : nat * dom => if is_source (Z.of_nat (fst kd)) then plain_labels (snd kd) else []) (fun kd => plain_labels (snd kd))).
    2:{ intros kd. unfold is_source. destruct (Z.leb_spec 0 (Z.of_nat (fst kd))); auto; lia. }
    replace (concat (map _ tkds)) with (@nil val); [apply app_nil_r|].
    clear -Pos. induction tkds as [|x l IH]; [reflexivity|]. cbn [map concat]. rewrite <- IH.
    + unfold is_source. specialize (Pos x (or_introl eq_refl)). destruct (Z.leb_spec 0 (- Z.of_nat (fst x))); auto; lia.
    + intros k Hk. apply Pos. now right.
Qed.

(** Without masking every label is unchanged. *)
Theorem C24_unmasked_labels_unchanged : forall (R : Type) (s : @dataset R) srcs tgts skds tkds mask,
  reachable s -> found s srcs skds -> found s tgts tkds -> srcs ++ tgts <> [] ->
  exists X sd, pack s srcs tgts false None RTArray None mask =
    Ok (PArrays X (concat (map (fun kd => plain_labels (snd kd)) (skds ++ tkds))) sd).
Proof.
  intros R s srcs tgts skds tkds mask Hr Fs Ft Hne. pose proof (inv_reachable s Hr) as I.
  unfold pack. rewrite (pack_sources_ok s srcs skds I Fs). cbn [bind p_X p_y p_sd p_names app].
  rewrite (pack_targets_unmasked s tgts tkds I Ft). cbn [bind p_X p_y p_sd p_names].
  replace (length srcs + length tgts =? 0) with false.
  2:{ symmetry. apply Nat.eqb_neq. rewrite <- app_length. destruct (srcs ++ tgts); [easy|discriminate]. }
  do 2 eexists. now rewrite map_app, concat_app.
Qed.

(** Integer labels that are neither int32 nor int64 (int8, uint8, ...) are not masked at all. *)
Theorem C24_other_dtypes_unmasked_refuted : exists (s : @dataset nat) d X y sd,
  reachable s /\ known s "t"%string 1 d /\ aligned d /\
  pack s [] ["t"%string] true None RTArray None None = Ok (PArrays X y sd) /\ y = plain_labels d /\ y = [VNum 5; VNum 7].
Proof.
  eexists. exists (mkDom [1;2] (Some (YOther, [VNum 5; VNum 7]))). do 3 eexists.
  split; [exists [OAdd (mkDom [1;2] (Some (YOther, [VNum 5; VNum 7]))) (Some "t"%string)]; reflexivity|].
  split; [split; [now left|split; [lia|reflexivity]]|]. split; [reflexivity|]. split; [reflexivity|]. split; reflexivity.
Qed.

Example C24_ex :
  pack ex_ds ["a"%string] ["_2"%string; "c"%string] true None RTArray None None =
    Ok (PArrays [10;11;20;30;31] [VNum 0; VNum 1; VNan; VNan; VNan] [1;1;-2;-3;-3]%Z) /\
  pack ex_ds ["_2"%string] ["c"%string; "a"%string] true None RTArray None (Some (VNum 9)) =
    Ok (PArrays [20;30;31;10;11] [VNum (1#2); VNum 9; VNum 9; VNum 9; VNum 9] [2;-3;-3;-1;-1]%Z).
Proof. split; reflexivity. Qed.

(** ** C25 *)

(** Every sequence of add_domain / merge calls that does not raise, if no name the user chose looks like a generated one. *)
Theorem C25_domains_retrievable_partial : forall (R : Type) (ops : list (@op R)) s,
  run ops = Ok s ->
  Forall (fun o => match o with OMerge other _ => reachable other | _ => True end) ops ->
  (forall o n, In o ops -> In n (explicit_names o) -> ~ looks_generated n) ->
  (forall n d, In (n, d) (history ops) -> get_domain s n = Ok d) /\
  NoDup (map fst (history ops)) /\
  map fst (ds_names s) = map fst (history ops) /\ length (ds_domains s) = length (history ops).
Proof.
  intros R ops s H Ho He. destruct (history_distinct ops s H Ho He) as [ND _].
  pose proof (run_tracks ops s H Ho ND) as T. split; [intros n d Hin; eapply tracks_get; eauto|].
  split; auto. split; [now apply tracks_fst|]. now apply tracks_len.
Qed.

(** Same conclusion whenever the names registered by the calls happen to be distinct. *)
Theorem C25_distinct_history : forall (R : Type) (ops : list (@op R)) s,
  run ops = Ok s ->
  Forall (fun o => match o with OMerge other _ => reachable other | _ => True end) ops ->
  NoDup (map fst (history ops)) ->
  (forall n d, In (n, d) (history ops) -> get_domain s n = Ok d) /\ length (ds_names s) = length (ds_domains s).
Proof.
  intros R ops s H Ho ND. pose proof (run_tracks ops s H Ho ND) as T.
  split; [intros n d Hin; eapply tracks_get; eauto|]. destruct (tracks_len _ _ T). lia.
Qed.

(** An explicit duplicate name is refused. *)
Theorem C25_duplicate_name_refused : forall (R : Type) (s : @dataset R) d n,
  In n (map fst (ds_names s)) -> add_domain s d (Some n) = Err AssertionError.
Proof.
  intros R s d n H. unfold add_domain. destruct (dict_get String.eqb n (ds_names s)) eqn:E; [reflexivity|].
  exfalso. now apply dict_get_None_notin in E.
Qed.

(** A generated name can overwrite an existing one: the first domain is lost without any error. *)
Theorem C25_generated_name_overwrites_refuted : exists (ops : list (@op nat)) s d1 d2,
  ops = [OAdd d1 (Some "_2"%string); OAdd d2 None] /\ run ops = Ok s /\ d1 <> d2 /\
  get_domain s "_2"%string = Ok d2 /\ length (ds_names s) = 1 /\ length (ds_domains s) = 2.
Proof.
  do 2 eexists. exists exA, exC. split; [reflexivity|]. split; [reflexivity|]. split; [discriminate|]. repeat split.
Qed.

(** merge fails on a dataset holding an X-only domain. *)
Theorem C25_merge_unlabelled_refuted : exists (s other : @dataset nat),
  reachable s /\ reachable other /\ get_domain other "c"%string = Ok exC /\ merge s other None = Err ValueError.
Proof.
  exists empty_ds. eexists. split; [exists []; reflexivity|].
  split; [exists [OAdd exC (Some "c"%string)]; reflexivity|]. split; reflexivity.
Qed.

(** The constructor is the sequence of add_domain calls when all tuples have length 2 or 3; a tuple of any other length is
    an error at first position but silently repeats the previous domain later. *)
Theorem C25_constructor : forall (R : Type) (l : list (@dom R * option string)) (two : list bool),
  length two = length l ->
  (forall i d n, nth_error l i = Some (d, n) -> nth_error two i = Some true -> n = None) ->
  make_dataset (map (fun p : (@dom R * option string) * bool => if snd p then C2 (fst (fst p)) else C3 (fst (fst p)) (snd (fst p))) (combine l two)) =
  run (map (fun p => OAdd (fst p) (snd p)) l).
Proof.
  intros R l two Hl Htwo. unfold make_dataset, run.
  assert (G : forall l two s prev, length two = length l ->
     (forall i d n, nth_error l i = Some (d, n) -> nth_error two i = Some true -> n = None) ->
     ctor_loop s prev (map (fun p : (@dom R * option string) * bool => if snd p then C2 (fst (fst p)) else C3 (fst (fst p)) (snd (fst p))) (combine l two))
     = fold_left (fun (r : res (@dataset R)) o => s <- r ;; run_op s o) (map (fun p => OAdd (fst p) (snd p)) l) (Ok s)).
  { clear. induction l as [|[d n] l IH]; intros [|b two] s prev Hl Htwo; try discriminate; [reflexivity|].
    cbn [combine map ctor_loop fold_left fst snd run_op]. 
    assert (E : (match (if b then @C2 R d else C3 d n), prev with C2 d0, _ => Ok (d0, None) | C3 d0 n0, _ => Ok (d0, n0)
                 | CBad, Some p => Ok p | CBad, None => Err UnboundLocalError end : res (@dom R * option string)) = Ok (d, n)).
    { destruct b; auto. now rewrite (Htwo 0 d n eq_refl eq_refl). }
    rewrite E. cbn [bind fst snd]. destruct (add_domain s d n) as [s'|e] eqn:Ea; cbn [bind].
    - apply IH; [simpl in Hl; lia|]. intros i d0 n0 H1 H2. apply (Htwo (S i) d0 n0); auto.
    - clear. induction l as [|x l IH]; simpl; auto. }
  apply G; auto.
Qed.

Theorem C25_constructor_bad_tuple_refuted : exists (s : @dataset nat),
  make_dataset [C2 exA; CBad] = Ok s /\ ds_domains s = [exA; exA] /\ make_dataset [@CBad nat] = Err UnboundLocalError.
Proof. eexists. split; [reflexivity|]. split; reflexivity. Qed.

Example C25_ex : history ex_ops = [("a"%string, exA); ("_2"%string, exB); ("c"%string, exC)] /\
  get_domain ex_ds "_2"%string = Ok exB /\
  run [OAdd exA None; OMerge (mkDS [exB] [("b"%string, 1)]) (Some [("b"%string, "z"%string)]); OAdd exC None] =
  Ok (mkDS [exA; exB; exC] [("_1"%string, 1); ("z"%string, 2); ("_3"%string, 3)]).
Proof. repeat split. Qed.

(** ** C26 *)

Lemma found_ids {R} (s : @dataset R) names kds : inv s -> NoDup names -> found s names kds -> NoDup (map fst kds).
Proof.
  intros [I1 [I2 I3]] ND F. induction F as [|n [k d] names kds Hn F IH]; [constructor|]. inversion ND; subst.
  cbn [map fst]. constructor; auto. intros C. apply H1.
  apply in_map_iff in C as [[k' d'] [E C]]. cbn [fst] in E. subst k'.
  assert (G : exists n', In n' names /\ In (n', k) (ds_names s)).
  { clear -F C. induction F; [easy|]. destruct C as [->|C].
    - exists x. split; [now left|]. apply H.
    - destruct (IHF C) as [n' [A B]]. exists n'. split; auto. now right. }
  destruct G as [n' [A B]]. destruct Hn as [Hn _]. cbn [fst] in Hn.
  assert (n = n'); [|now subst].
  clear -I2 Hn B. induction (ds_names s) as [|[a b] l IH]; [easy|]. cbn [map snd] in I2. inversion I2; subst.
  destruct Hn as [Hn|Hn], B as [B|B].
  - congruence.
  - injection Hn as -> ->. exfalso. apply H1. apply in_map_iff. now exists (n', k).
  - injection B as -> ->. exfalso. apply H1. apply in_map_iff. now exists (n, k).
  - auto.
Qed.

(** The rows carrying the signed id of a domain are its rows, with its labels. *)
Theorem C26_pack_then_select : forall (R : Type) (s : @dataset R) srcs tgts skds tkds,
  reachable s -> NoDup srcs -> NoDup tgts -> found s srcs skds -> found s tgts tkds ->
  all_aligned skds -> all_aligned tkds -> srcs ++ tgts <> [] ->
  exists X y sd, pack s srcs tgts false None RTArray None None = Ok (PArrays X y sd) /\
    length X = length sd /\ length y = length sd /\
    (forall k d, In (k, d) skds -> rows_of (Z.eqb (Z.of_nat k)) sd X = d_X d /\
                                   rows_of (Z.eqb (Z.of_nat k)) sd y = plain_labels d) /\
    (forall k d, In (k, d) tkds -> rows_of (Z.eqb (- Z.of_nat k)) sd X = d_X d /\
                                   rows_of (Z.eqb (- Z.of_nat k)) sd y = plain_labels d).
Proof.
  intros R s srcs tgts skds tkds Hr Ns Nt Fs Ft As At Hne. pose proof (inv_reachable s Hr) as I.
  unfold pack. rewrite (pack_sources_ok s srcs skds I Fs). cbn [bind p_X p_y p_sd p_names app].
  rewrite (pack_targets_unmasked s tgts tkds I Ft). cbn [bind p_X p_y p_sd p_names].
  replace (length srcs + length tgts =? 0) with false.
  2:{ symmetry. apply Nat.eqb_neq. rewrite <- app_length. destruct (srcs ++ tgts); [easy|discriminate]. }
  do 3 eexists. split; [reflexivity|].
  set (all := map (fun kd => (Z.of_nat (fst kd), snd kd)) skds ++ map (fun kd => ((- Z.of_nat (fst kd))%Z, snd kd)) tkds).
  assert (EX : concat (map (fun kd : nat * @dom R => d_X (snd kd)) skds) ++ concat (map (fun kd => d_X (snd kd)) tkds) = concat (map (fun b => d_X (snd b)) all)).
  { unfold all. rewrite map_app, !map_map, concat_app. reflexivity. }
  assert (EY : concat (map (fun kd : nat * @dom R => plain_labels (snd kd)) skds) ++ concat (map (fun kd => plain_labels (snd kd)) tkds) = concat (map (fun b => plain_labels (snd b)) all)).
  { unfold all. rewrite map_app, !map_map, concat_app. reflexivity. }
  assert (ES : concat (map (fun kd : nat * @dom R => repeat (Z.of_nat (fst kd)) (length (plain_labels (snd kd)))) skds) ++
     concat (map (fun kd => repeat (- Z.of_nat (fst kd))%Z (length (plain_labels (snd kd)))) tkds) =
     concat (map (fun b => repeat (fst b) (length (plain_labels (snd b)))) all)).
  { unfold all. rewrite map_app, !map_map, concat_app. reflexivity. }
  assert (Aall : Forall (fun b => aligned (snd b)) all).
  { unfold all. apply Forall_app. split; apply Forall_map; assumption. }
  assert (ES2 : map (fun b : Z * dom => repeat (fst b) (length (plain_labels (snd b)))) all = map (fun b => repeat (fst b) (length (d_X (snd b)))) all).
  { apply map_ext_in. intros b Hb. rewrite plain_labels_length; auto. eapply Forall_forall in Aall; eauto. }
  assert (NDall : NoDup (map fst all)).
  { unfold all. rewrite map_app, !map_map. cbn [fst]. apply NoDup_app_disjoint.
    - rewrite <- (map_map fst Z.of_nat). apply FinFun.Injective_map_NoDup; [intros a b; lia|]. exact (found_ids s srcs skds I Ns Fs).
    - rewrite <- (map_map fst (fun k => (- Z.of_nat k)%Z)). apply FinFun.Injective_map_NoDup; [intros a b; lia|]. exact (found_ids s tgts tkds I Nt Ft).
    - intros z Hz Hz'. apply in_map_iff in Hz as [[k d] [E1 Hz]]. apply in_map_iff in Hz' as [[k' d'] [E2 Hz']]. cbn [fst] in *.
      assert (1 <= k'); [|lia]. clear -Ft Hz'. induction Ft; [easy|]. destruct Hz' as [->|Hz']; auto. destruct H as [_ [H _]]. exact H. }
  assert (FND : forall c d, In (c, d) all -> find (fun b => (c =? fst b)%Z) all = Some (c, d)).
  { clear -NDall. induction all as [|[c0 d0] l IH]; [easy|]. cbn [map fst] in NDall. inversion NDall; subst. intros c d [E|Hin]; cbn [find fst].
    - injection E as -> ->. now rewrite Z.eqb_refl.
    - destruct (Z.eqb_spec c c0) as [->|N]; [|auto]. exfalso. apply H1. apply in_map_iff. now exists (c0, d). }
  rewrite EX, EY, ES.
  assert (RX : forall c d, In (c, d) all -> rows_of (Z.eqb c) (concat (map (fun b => repeat (fst b) (length (plain_labels (snd b)))) all)) (concat (map (fun b => d_X (snd b)) all)) = d_X d).
  { intros c d Hin. rewrite ES2, (rows_of_blocks fst (fun b => d_X (snd b))) by auto. now rewrite (FND c d Hin). }
  assert (RY : forall c d, In (c, d) all -> rows_of (Z.eqb c) (concat (map (fun b => repeat (fst b) (length (plain_labels (snd b)))) all)) (concat (map (fun b => plain_labels (snd b)) all)) = plain_labels d).
  { intros c d Hin. rewrite (rows_of_blocks fst (fun b => plain_labels (snd b))) by auto. now rewrite (FND c d Hin). }
  assert (LL : forall f : dom -> nat, length (concat (map (fun b : Z * dom => repeat (fst b) (f (snd b))) all)) = fold_right Nat.add 0 (map (fun b => f (snd b)) all)).
  { intros f. clear. induction all as [|b l IH]; simpl; auto. now rewrite app_length, repeat_length, IH. }
  split; [|split; [|split]].
  - rewrite ES2, (LL (fun d => length (d_X d))). clear. induction all as [|b l IH]; simpl; auto. now rewrite app_length, IH.
  - rewrite (LL (fun d => length (plain_labels d))). clear. induction all as [|b l IH]; simpl; auto. now rewrite app_length, IH.
  - intros k d Hin. assert (G : In (Z.of_nat k, d) all).
    { unfold all. apply in_or_app. left. apply in_map_iff. exists (k, d). auto. }
    split; [now apply RX|now apply RY].
  - intros k d Hin. assert (G : In ((- Z.of_nat k)%Z, d) all).
    { unfold all. apply in_or_app. right. apply in_map_iff. exists (k, d). auto. }
    split; [now apply RX|now apply RY].
Qed.

(** per_domain_split on the packed features gives each non-empty domain back under its signed id. *)
Theorem C26_pack_then_per_domain_split : forall (R : Type) (s : @dataset R) srcs tgts skds tkds,
  reachable s -> NoDup srcs -> NoDup tgts -> found s srcs skds -> found s tgts tkds ->
  all_aligned skds -> all_aligned tkds -> (exists k d, In (k, d) (skds ++ tkds) /\ d_X d <> []) ->
  exists X y sd sp tp, pack s srcs tgts false None RTArray None None = Ok (PArrays X y sd) /\
    per_domain_split [Some X] sd = Ok (sp, tp) /\
    (forall k d, In (k, d) skds -> d_X d <> [] -> In (Z.of_nat k, [Some (d_X d)]) sp) /\
    (forall k d, In (k, d) tkds -> d_X d <> [] -> In ((- Z.of_nat k)%Z, [Some (d_X d)]) tp).
Proof.
  intros R s srcs tgts skds tkds Hr Ns Nt Fs Ft As At [k0 [d0 [Hin0 Hne0]]].
  assert (Hne : srcs ++ tgts <> []).
  { intros E. apply app_eq_nil in E as [-> ->]. inversion Fs; subst. inversion Ft; subst. easy. }
  destruct (C26_pack_then_select R s srcs tgts skds tkds Hr Ns Nt Fs Ft As At Hne) as [X [y [sd [E [L1 [L2 [P Q]]]]]]].
  assert (Rne : forall c (d : @dom R), rows_of (Z.eqb c) sd X = d_X d -> d_X d <> [] -> In c sd).
  { intros c d Hrow Hd. rewrite <- Hrow in Hd. unfold rows_of in Hd.
    destruct (filter (fun q => (c =? fst q)%Z) (combine sd X)) as [|[c' x] l] eqn:Ef; [easy|].
    assert (G : In (c', x) (filter (fun q => (c =? fst q)%Z) (combine sd X))) by (rewrite Ef; now left).
    apply filter_In in G as [G1 G2]. simpl in G2. apply Z.eqb_eq in G2. subst c'. now apply in_combine_l in G1. }
  assert (Sne : sd <> []).
  { intros ->. apply in_app_iff in Hin0 as [H|H].
    - destruct (P _ _ H) as [H1 _]. exact (Rne _ _ H1 Hne0).
    - destruct (Q _ _ H) as [H1 _]. exact (Rne _ _ H1 Hne0). }
  rewrite E. exists X, y, sd. rewrite per_domain_ok; [|discriminate|exact Sne|intros xs [H|[]]; injection H as <-; auto].
  do 2 eexists. split; [reflexivity|]. split; [reflexivity|].
  assert (Pos : forall k d, In (k, d) tkds -> 1 <= k).
  { intros k d H. clear -Ft H. induction Ft; [easy|]. destruct H as [->|H]; auto. destruct H0 as [_ [H0 _]]. exact H0. }
  split; intros k d Hin Hd; apply in_map_iff; eexists.
  - destruct (P _ _ Hin) as [H1 _]. split; [cbn; now rewrite H1|]. apply filter_In. split; [apply unique_In; now apply (Rne _ d)|].
    unfold is_source. apply Z.leb_le. lia.
  - destruct (Q _ _ Hin) as [H1 _]. split; [cbn; now rewrite H1|]. apply filter_In. split; [apply unique_In; now apply (Rne _ d)|].
    unfold is_target. apply Z.ltb_lt. specialize (Pos _ _ Hin). lia.
Qed.

Example C26_ex : found ex_ds ["a"%string; "c"%string] [(1, exA); (3, exC)] /\ all_aligned [(1, exA); (3, exC)] /\
  per_domain_split [Some [30;31;10;11;20]] [3;3;1;1;-2]%Z = Ok ([(1%Z, [Some [10;11]]); (3%Z, [Some [30;31]])], [((-2)%Z, [Some [20]])]).
Proof.
  split; [repeat (constructor; [split; [simpl; auto|split; [simpl; lia|reflexivity]]|]); constructor|].
  split; [repeat constructor|reflexivity].
Qed.

(** ** C27 *)

Theorem C27_select_domain_exact : forall names sd domains m,
  select_domain names sd domains = Ok m ->
  length m = length sd /\
  forall i d, nth_error sd i = Some d ->
    (nth_error m i = Some true <-> exists n, In n domains /\ dict_get String.eqb n names = Some d).
Proof.
  intros names sd domains m H. unfold select_domain in H. destruct domains as [|n ns]; [discriminate|].
  destruct (dict_getitem String.eqb n names) as [k|e] eqn:E; [|discriminate]. cbn [bind] in H.
  rewrite (select_domain_fold names sd ns [k]) in H.
  2:{ apply map_ext. intros x. simpl. now rewrite orb_false_r. }
  apply bind_ok in H as [ks [Hks H]]. injection H as <-. split; [apply map_length|].
  intros i d Hd. rewrite nth_error_map, Hd. cbn [option_map].
  assert (Gk : forall n' k', dict_getitem String.eqb n' names = Ok k' <-> dict_get String.eqb n' names = Some k').
  { intros n' k'. unfold dict_getitem. destruct (dict_get String.eqb n' names); split; intros G; congruence. }
  split.
  - intros Ht. injection Ht as Ht. change (existsb (Z.eqb d) ([k] ++ ks) = true) in Ht. apply existsb_exists in Ht as [z [Hz Hz']]. apply Z.eqb_eq in Hz'. subst z.
    simpl in Hz. destruct Hz as [->|Hz].
    + exists n. split; [now left|]. now apply Gk.
    + apply In_nth_error in Hz as [j Hj].
      assert (Lj : j < length ns) by (rewrite <- (mapM_ok_length _ _ _ Hks); apply nth_error_Some; congruence).
      destruct (nth_error_lt_some ns j Lj) as [n' Hn'].
      destruct (mapM_nth_error _ _ _ _ _ Hks Hn') as [k' [A B]]. assert (k' = d) by congruence. subst k'.
      exists n'. split; [right; eapply nth_error_In; eauto|]. now apply Gk.
  - intros [n' [Hin Hn']]. f_equal. change (existsb (Z.eqb d) ([k] ++ ks) = true). apply existsb_exists. exists d. split; [|apply Z.eqb_refl].
    destruct Hin as [->|Hin].
    + left. apply Gk in Hn'. congruence.
    + right. apply In_nth_error in Hin as [j Hj]. destruct (mapM_nth_error _ _ _ _ _ Hks Hj) as [k' [A B]].
      apply Gk in Hn'. assert (k' = d) by congruence. subst. eapply nth_error_In; eauto.
Qed.

Theorem C27_select_domain_known : forall names sd domains, domains <> [] ->
  (forall n, In n domains -> exists k, dict_get String.eqb n names = Some k) ->
  exists m, select_domain names sd domains = Ok m.
Proof.
  intros names sd [|n ns] Hne H; [easy|]. unfold select_domain.
  assert (G : forall n', In n' (n :: ns) -> exists k, dict_getitem String.eqb n' names = Ok k).
  { intros n' Hn'. destruct (H n' Hn') as [k Hk]. exists k. unfold dict_getitem. now rewrite Hk. }
  destruct (G n (or_introl eq_refl)) as [k ->]. cbn [bind]. rewrite (select_domain_fold names sd ns [k]).
  2:{ apply map_ext. intros x. simpl. now rewrite orb_false_r. }
  assert (M : exists ks, mapM (fun n => dict_getitem String.eqb n names) ns = Ok ks).
  { assert (G' : forall n', In n' ns -> exists k, dict_getitem String.eqb n' names = Ok k) by (intros; apply G; now right).
    clear -G'. induction ns as [|a ns IH]; [now exists []|]. destruct (G' a (or_introl eq_refl)) as [k Hk].
    destruct IH as [ks Hks]; [intros; apply G'; now right|]. exists (k :: ks). cbn [mapM]. now rewrite Hk, Hks. }
  destruct M as [ks ->]. cbn [bind]. eauto.
Qed.

Theorem C27_unknown_name : forall names sd domains,
  (exists n, In n domains /\ ~ In n (map fst names)) -> select_domain names sd domains = Err KeyError.
Proof.
  intros names sd [|n ns] [n' [Hin Hn']]; [easy|]. unfold select_domain.
  assert (K : forall q, exists k, dict_getitem String.eqb q names = Ok k \/ dict_getitem String.eqb q names = Err KeyError).
  { intros q. unfold dict_getitem. destruct (dict_get String.eqb q names) as [z|]; [exists z|exists 0%Z]; auto. }
  assert (U : dict_getitem String.eqb n' names = Err KeyError).
  { unfold dict_getitem. now rewrite dict_get_absent. }
  destruct (K n) as [k [E|E]]; rewrite E; cbn [bind]; [|reflexivity].
  destruct Hin as [->|Hin]; [congruence|]. rewrite (select_domain_fold names sd ns [k]).
  2:{ apply map_ext. intros x. simpl. now rewrite orb_false_r. }
  assert (M : mapM (fun n => dict_getitem String.eqb n names) ns = Err KeyError).
  { clear -Hin K U. induction ns as [|a ns IH]; [easy|]. cbn [mapM]. destruct (K a) as [k [E|E]]; rewrite E; cbn [bind]; auto.
    destruct Hin as [->|Hin]; [congruence|]. now rewrite IH. }
  now rewrite M.
Qed.

Example C27_ex : select_domain [("a"%string, 1%Z); ("b"%string, (-2)%Z)] [1;-2;2;1;-1]%Z ["b"%string; "a"%string] = Ok [true;true;false;true;false] /\
  select_domain [("a"%string, 1%Z)] [1]%Z ["a"%string; "z"%string] = Err KeyError.
Proof. split; reflexivity. Qed.

(** ** C76 *)

(** The name table returned with a Bunch: when no name is used both as source and as target, select_domain on it marks
    exactly the rows of the named domain. *)
Theorem C76_bunch_names_partial : forall (R : Type) (s : @dataset R) srcs tgts skds tkds n k d,
  reachable s -> NoDup srcs -> NoDup tgts -> (forall n, In n srcs -> ~ In n tgts) ->
  found s srcs skds -> found s tgts tkds -> all_aligned skds -> all_aligned tkds ->
  In (n, (k, d)) (combine srcs skds) \/ In (n, (k, d)) (combine tgts tkds) ->
  exists X y sd names m, pack s srcs tgts false None RTBunch None None = Ok (PBunch X y sd names) /\
    select_domain names sd [n] = Ok m /\ select m X = d_X d /\ select m y = plain_labels d.
Proof.
  intros R s srcs tgts skds tkds n k d Hr Ns Nt Dj Fs Ft As At Hnk. pose proof (inv_reachable s Hr) as I.
  assert (Hne : srcs ++ tgts <> []).
  { destruct Hnk as [H|H]; apply in_combine_l in H; intros E; apply app_eq_nil in E as [-> ->]; easy. }
  destruct (C26_pack_then_select R s srcs tgts skds tkds Hr Ns Nt Fs Ft As At Hne) as [X [y [sd [E [L1 [L2 [P Q]]]]]]].
  unfold pack in *. rewrite (pack_sources_ok s srcs skds I Fs) in *. cbn [bind p_X p_y p_sd p_names app] in *.
  rewrite (pack_targets_unmasked s tgts tkds I Ft) in *. cbn [bind p_X p_y p_sd p_names] in *.
  assert (Z0 : (length srcs + length tgts =? 0) = false).
  { apply Nat.eqb_neq. rewrite <- app_length. destruct (srcs ++ tgts); [easy|discriminate]. }
  rewrite Z0 in *. injection E as EX EY ES. rewrite EX, EY, ES.
  assert (Nd1 : forall (ks : list (nat * @dom R)) (nm : list string), length nm = length ks -> map fst (combine nm ks) = nm).
  { intros ks nm. revert ks. induction nm as [|a nm IH]; intros [|b ks] H; simpl in *; try discriminate; auto. f_equal. apply IH. lia. }
  assert (Lf : forall (nm : list string) (ks : list (nat * @dom R)), found s nm ks -> length nm = length ks).
  { intros nm ks F. eapply Forall2_length; eauto. }
  assert (K1 : map fst (src_labels srcs skds) = srcs).
  { unfold src_labels. rewrite map_map. cbn [fst]. apply Nd1. now apply Lf. }
  assert (K2 : map fst (tgt_labels tgts tkds) = tgts).
  { unfold tgt_labels. rewrite map_map. cbn [fst]. apply Nd1. now apply Lf. }
  assert (G : exists c, dict_get String.eqb n (dict_update String.eqb (dict_update String.eqb [] (src_labels srcs skds)) (tgt_labels tgts tkds)) = Some c /\
     rows_of (Z.eqb c) sd X = d_X d /\ rows_of (Z.eqb c) sd y = plain_labels d).
  { rewrite dict_get_update_NoDup by (now rewrite K2). destruct Hnk as [H|H].
    - exists (Z.of_nat k). split; [|apply P; now apply in_combine_r in H].
      rewrite dict_get_absent.
      + rewrite dict_get_update_NoDup by (now rewrite K1).
        rewrite (dict_get_present n (Z.of_nat k)); auto; [now rewrite K1|].
        unfold src_labels. apply in_map_iff. exists (n, (k, d)). auto.
      + rewrite K2. apply Dj. now apply in_combine_l in H.
    - exists (- Z.of_nat k)%Z. split; [|apply Q; now apply in_combine_r in H].
      rewrite (dict_get_present n (- Z.of_nat k)%Z); auto; [now rewrite K2|].
      unfold tgt_labels. apply in_map_iff. exists (n, (k, d)). auto. }
  destruct G as [c [G1 [G2 G3]]]. do 5 eexists. split; [reflexivity|]. split.
  { unfold select_domain, dict_getitem. rewrite G1. reflexivity. }
  rewrite rows_of_select in G2. rewrite rows_of_select in G3.
  rewrite (map_ext (fun x => (x =? c)%Z) (Z.eqb c)) by (intros; apply Z.eqb_sym). auto.
Qed.

(** When a domain is used both ways the table only knows its target label: its source rows cannot be selected by name. *)
Theorem C76_both_ways_refuted : exists X y sd names,
  pack ex_ds ["a"%string] ["a"%string] false None RTBunch None None = Ok (PBunch X y sd names) /\
  sd = [1;1;-1;-1]%Z /\ select_domain names sd ["a"%string] = Ok [false;false;true;true].
Proof. do 4 eexists. split; [reflexivity|]. split; reflexivity. Qed.

Example C76_ex : exists X y sd names,
  pack ex_ds ["c"%string] ["a"%string] false None RTBunch None None = Ok (PBunch X y sd names) /\
  select_domain names sd ["c"%string] = Ok [true;true;false;false].
Proof. do 4 eexists. split; reflexivity. Qed.

(** ** C77 *)

(** pack_lodo: every domain occurs once as source with its labels and once as target, masked. *)
Theorem C77_pack_lodo : forall (R : Type) (s : @dataset R) kds m,
  reachable s -> found s (map fst (ds_names s)) kds -> all_aligned kds -> mask_value None (map snd kds) = Some m ->
  exists X y sd, pack_lodo s None RTArray = Ok (PArrays X y sd) /\
    X = concat (map (fun kd => d_X (snd kd)) kds) ++ concat (map (fun kd => d_X (snd kd)) kds) /\
    y = concat (map (fun kd => plain_labels (snd kd)) kds) ++ repeat m (length (concat (map (fun kd => d_X (snd kd)) kds))) /\
    sd = concat (map (fun kd => repeat (Z.of_nat (fst kd)) (length (d_X (snd kd)))) kds) ++
         concat (map (fun kd => repeat (- Z.of_nat (fst kd))%Z (length (d_X (snd kd)))) kds).
Proof.
  intros R s kds m Hr F Al Hm. pose proof (inv_reachable s Hr) as I.
  unfold pack_lodo, pack. rewrite (pack_sources_ok s _ kds I F). cbn [bind p_X p_y p_sd p_names app].
  rewrite (pack_targets_masked s _ kds None m I F Hm). cbn [bind p_X p_y p_sd p_names].
  assert (Hne : kds <> []) by (intros ->; discriminate).
  assert (Z0 : (length (map fst (ds_names s)) + length (map fst (ds_names s)) =? 0) = false).
  { apply Nat.eqb_neq. rewrite (Forall2_length _ _ _ F). destruct kds; [easy|simpl; lia]. }
  rewrite Z0. do 3 eexists. split; [reflexivity|]. split; [reflexivity|]. split.
  - f_equal. clear. induction kds as [|x l IH]; simpl; auto. now rewrite app_length, repeat_app, IH.
  - f_equal. f_equal. apply map_ext_in. intros kd Hkd. rewrite plain_labels_length; auto. eapply Forall_forall in Al; eauto.
Qed.

(** The default return_X_y=True makes return_type ineffective. *)
Theorem C77_default_ignores_return_type_refuted : exists X y sd,
  pack_lodo ex_ds (Some true) RTBunch = Ok (PArrays X y sd).
Proof. do 3 eexists. reflexivity. Qed.

Example C77_ex : pack_lodo (mkDS [exA; exB] [("a"%string, 1); ("b"%string, 2)]) None RTArray =
  Ok (PArrays [10;11;20;10;11;20] [VNum 0; VNum 1; VNum (1#2); VNum (inject_Z (-1)); VNum (inject_Z (-1)); VNum (inject_Z (-1))]
     [1;1;2;-1;-1;-2]%Z).
Proof. reflexivity. Qed.
