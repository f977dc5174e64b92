(** C23, C24: the older methods of datasets for packing training and test data. *)
From Coq Require Import String List ZArith QArith Bool Arith Lia.
From Verif Require Import Np NpFacts Labels Spec SpecFacts PipeModel DataModel DataSpec DataProofs ThmData.
Import ListNotations.
Local Open Scope nat_scope.
Local Open Scope list_scope.

Lemma pack_array_arg {R} (s : @dataset R) srcs tgts b mask : pack s srcs tgts b (Some true) RTAuto None mask = pack s srcs tgts b None RTArray None mask.
Proof. reflexivity. Qed.
Lemma pack_bunch_arg {R} (s : @dataset R) srcs tgts b mask X y sd : pack s srcs tgts b None RTArray None mask = Ok (PArrays X y sd) ->
  exists names, pack s srcs tgts b (Some false) RTAuto None mask = Ok (PBunch X y sd names).
Proof.
  unfold pack. intros H. apply bind_ok in H as (a1 & E1 & H). apply bind_ok in H as (a & E2 & H). rewrite E1. cbn [bind]. rewrite E2. cbn [bind].
  destruct (_ =? 0); [discriminate|]. injection H as <- <- <-. eauto.
Qed.

(** pack_train: sources first with their labels, then the targets, all with the one mask value; as arrays or as a Bunch. *)
Theorem C24_pack_train : forall (R : Type) (s : @dataset R) srcs tgts skds tkds mask m,
  reachable s -> found s srcs skds -> found s tgts tkds -> all_aligned skds -> all_aligned tkds -> srcs ++ tgts <> [] ->
  mask_value mask (map snd tkds) = Some m ->
  exists X y sd, pack_train s srcs tgts true mask = Ok (PArrays X y sd) /\ (exists names, pack_train s srcs tgts false mask = Ok (PBunch X y sd names)) /\
    X = concat (map (fun kd => d_X (snd kd)) (skds ++ tkds)) /\
    sd = concat (map (fun kd => repeat (Z.of_nat (fst kd)) (length (d_X (snd kd)))) skds) ++
         concat (map (fun kd => repeat (- Z.of_nat (fst kd))%Z (length (d_X (snd kd)))) tkds) /\
    rows_of is_target sd y = repeat m (length (concat (map (fun kd => d_X (snd kd)) tkds))) /\
    rows_of is_source sd y = concat (map (fun kd => plain_labels (snd kd)) skds).
Proof.
  intros R s srcs tgts skds tkds mask m Hr Fs Ft As At Hne Hm.
  destruct (C23_pack_layout R s srcs tgts skds tkds true mask Hr Fs Ft As At Hne) as (X & y & sd & E & HX & Hsd & _).
  destruct (C24_target_labels_masked_partial R s srcs tgts skds tkds mask m Hr Fs Ft Hne Hm) as (X' & y' & sd' & E' & T & S).
  rewrite E in E'. injection E' as <- <- <-. exists X, y, sd. unfold pack_train. rewrite pack_array_arg. split; auto. split; [eapply pack_bunch_arg; eauto|]. auto.
Qed.
(** pack_test: the targets with their true labels, and nothing else. *)
Theorem C24_pack_test : forall (R : Type) (s : @dataset R) tgts tkds,
  reachable s -> found s tgts tkds -> all_aligned tkds -> tgts <> [] ->
  let X := concat (map (fun kd => d_X (snd kd)) tkds) in let y := concat (map (fun kd => plain_labels (snd kd)) tkds) in
  let sd := concat (map (fun kd => repeat (- Z.of_nat (fst kd))%Z (length (d_X (snd kd)))) tkds) in
  pack_test s tgts true = Ok (PArrays X y sd) /\ exists names, pack_test s tgts false = Ok (PBunch X y sd names).
Proof.
  intros R s tgts tkds Hr Ft At Hne X y sd. assert (F0 : found s [] []) by constructor.
  destruct (C23_pack_layout R s [] tgts [] tkds false None Hr F0 Ft ltac:(constructor) At Hne) as (X' & y' & sd' & E & HX & Hsd & _).
  destruct (C24_unmasked_labels_unchanged R s [] tgts [] tkds None Hr F0 Ft Hne) as (X2 & sd2 & E2). rewrite E in E2. injection E2 as <- -> <-. cbn [app map concat] in *. subst X' sd'.
  fold X y sd in E. unfold pack_test. rewrite pack_array_arg. split; auto. eapply pack_bunch_arg; eauto.
Qed.
Example C24_older_ex :
  pack_train ex_ds ["a"%string] ["_2"%string; "c"%string] true None = Ok (PArrays [10;11;20;30;31] [VNum 0; VNum 1; VNan; VNan; VNan] [1;1;-2;-3;-3]%Z) /\
  pack_test ex_ds ["_2"%string; "a"%string] true = Ok (PArrays [20;10;11] [VNum (1#2); VNum 0; VNum 1] [-2;-1;-1]%Z) /\
  mask_value None [exB; exC] = Some VNan.
Proof. repeat split; reflexivity. Qed.
