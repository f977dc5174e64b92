(** * Tightening of C64, C159 and C222 after mutation tests *)
From Coq Require Import String List ZArith QArith Bool Arith Lia Reals Lra.
From Verif Require Import Np NpFacts Labels RVec RVecFacts Spec SpecFacts UtilsModel UtilsProofs DomArgModel DeepModel.
From Verif Require ThmDomArg ViewModel ThmView.
Import ListNotations.
Local Open Scope nat_scope.
Local Open Scope list_scope.

(** A loss reduced to one number is accepted with a single source sample, and is then multiplied by the weight of that sample. *)
Theorem C64_single_source r w sd : length w = length sd -> how_many is_source sd = 1 -> (forall s, In s sd -> s <> 0%Z) ->
  exists a, rows_of is_source sd w = [a] /\ get_loss (Scalar r) (Some w) sd = Ok (Some (a * r)%R).
Proof.
  intros Lw H HZ. assert (LR : length (rows_of is_source sd w) = 1) by (rewrite <- H; apply rows_of_length; auto).
  destruct (rows_of is_source sd w) as [|a [|]] eqn:Q; try discriminate. exists a. split; [reflexivity|]. unfold get_loss.
  assert (E : map (fun s => (0 <? s)%Z) sd = map is_source sd).
  { apply map_ext_in. intros s Hin. unfold is_source. specialize (HZ s Hin). destruct (Z.ltb_spec 0 s), (Z.leb_spec 0 s); auto; lia. }
  rewrite E, np_select_ok by (now rewrite map_length). cbn [bind]. rewrite <- rows_of_select, Q. cbn. unfold mean, vsum. cbn. do 2 f_equal. field.
Qed.
Example C64_single_source_ex : get_loss (Scalar 3) (Some [5; 7]%R) [2; -1]%Z = Ok (Some 15%R).
Proof.
  destruct (C64_single_source 3 [5; 7]%R [2; -1]%Z eq_refl eq_refl) as (a & Ea & ->).
  - intros s [<-|[<-|[]]]; discriminate.
  - injection Ea as <-. do 2 f_equal. lra.
Qed.

(** Arrays of labels are merged by as the labels themselves; an empty array counts as none given. *)
Theorem C222_merge : forall zs arrays, ThmDomArg.fits zs ->
  merge_given arrays (GArray (ThmDomArg.entries zs)) = (r <- source_target_merge arrays (match zs with [] => None | _ => Some zs end) ;; Ok (fst r)).
Proof.
  intros zs arrays F. unfold merge_given. destruct zs as [|z zs]; [reflexivity|]. cbn [ThmDomArg.entries map length Nat.eqb].
  change (VNum (inject_Z z) :: map (fun z => VNum (inject_Z z)) zs) with (ThmDomArg.entries (z :: zs)). rewrite (ThmDomArg.to_int32_fits _ F). reflexivity.
Qed.
Example C222_merge_ex : merge_given [Some (mkArr DInt [] [[VNum 3]]); Some (mkArr DInt [] [[VNum 4]])] (GArray [VNum (-1); VNum 1]) = Ok [mkArr DInt [] [[VNum 4]; [VNum 3]]] /\
  merge_given [Some (mkArr DInt [] [[VNum 3]]); Some (mkArr DInt [] [[VNum 4]])] (GArray []) = Ok [mkArr DInt [] [[VNum 3]; [VNum 4]]].
Proof.
  split.
  - change [VNum (-1); VNum 1] with (ThmDomArg.entries [-1; 1]%Z). rewrite C222_merge; [reflexivity|]. apply Forall_forall. intros z [<-|[<-|[]]]; lia.
  - change (@nil val) with (ThmDomArg.entries []). rewrite C222_merge by constructor. reflexivity.
Qed.

(** Merging weighted data sets one after the other and keeping the weights: every sample keeps its own weight. *)
Theorem C159_weights (Row : Type) : forall (bs : list (ds Row)) d, Forall (fun b => length (t_w _ b) = length (t_X _ b)) (d :: bs) ->
  let r := ViewModel.run (map (fun b => ViewModel.OpMerge b true) bs) d in
  length (t_w _ r) = length (t_X _ r) /\ combine (t_X _ r) (t_w _ r) = flat_map (fun b => combine (t_X _ b) (t_w _ b)) (d :: bs).
Proof.
  assert (CA : forall (A B : Type) (a a' : list A) (b b' : list B), length b = length a -> combine (a ++ a') (b ++ b') = combine a b ++ combine a' b').
  { induction a; intros a' [|y b] b' L; cbn in *; try discriminate; auto. f_equal. apply IHa. congruence. }
  induction bs as [|b bs IH]; intros d F.
  - inversion F; subst. cbn. rewrite app_nil_r. auto.
  - inversion F as [|? ? Fd Fb]; subst. inversion Fb as [|? ? Hb Fbs]; subst. cbv zeta.
    set (d' := fst (ViewModel.step d (ViewModel.OpMerge b true))).
    change (ViewModel.run (map (fun b => ViewModel.OpMerge b true) (b :: bs)) d) with (ViewModel.run (map (fun b => ViewModel.OpMerge b true) bs) d').
    destruct (IH d') as [I1 I2].
    + constructor; [|exact Fbs]. cbn. rewrite !app_length. congruence.
    + split; [exact I1|]. rewrite I2. cbn [flat_map]. rewrite app_assoc. f_equal. unfold d'. cbn. now apply CA.
Qed.
Example C159_weights_ex : let a := mkDs nat [10] [VNum 0] [4]%Z [5]%R [true] [0] in
  Forall (fun b => length (t_w _ b) = length (t_X _ b)) [a; ThmView.ex_b] /\
  combine (t_X _ (ViewModel.run [ViewModel.OpMerge ThmView.ex_b true] a)) (t_w _ (ViewModel.run [ViewModel.OpMerge ThmView.ex_b true] a)) = [(10, 5%R); (20, 1%R); (21, 2%R)].
Proof. split; [repeat constructor|reflexivity]. Qed.
