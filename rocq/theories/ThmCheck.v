(** C188: what a check has accepted is accepted again, unchanged. *)
From Coq Require Import List ZArith QArith Bool Arith Lia.
From Verif Require Import Np NpFacts Labels Spec SpecFacts UtilsModel UtilsSpec UtilsProofs UtilsProofs2.
Import ListNotations.
Local Open Scope nat_scope.

(** [g] allows everything [f] allows. *)
Definition at_least (f g : flags) : Prop :=
  (f_source f = true -> f_source g = true) /\ (f_multi_source f = true -> f_multi_source g = true) /\
  (f_target f = true -> f_target g = true) /\ (f_multi_target f = true -> f_multi_target g = true) /\
  (f_common f = true -> f_common g = true) /\
  match f_domains g with None => True | Some ds => exists ds', f_domains f = Some ds' /\ incl ds' ds end.

Lemma check_flags_again f g sd r : at_least f g -> check_flags f sd = Ok r -> r = sd /\ check_flags g sd = Ok sd.
Proof.
  intros (A & B & C & D & E & _) H. unfold check_flags, raise_if in *.
  destruct (f_source f), (f_source g), (f_target f), (f_target g), (f_multi_source f), (f_multi_source g), (f_multi_target f), (f_multi_target g), (f_common f), (f_common g);
    try (exfalso; clear - A B C D E; intuition discriminate); cbn [negb andb] in *;
    repeat match type of H with (if ?b then _ else _) = _ => destruct b; try discriminate end; injection H as <-; auto.
Qed.
Lemma allow_again f g sd : at_least f g -> check_allow_domains f sd = true -> check_allow_domains g sd = true.
Proof.
  intros (_ & _ & _ & _ & _ & I) H. unfold check_allow_domains in *. destruct (f_domains g) as [ds|]; auto. destruct I as (ds' & E & I). rewrite E in H.
  apply forallb_forall. intros d Hd. apply (proj1 (forallb_forall _ _) H) in Hd. apply orb_true_iff in Hd. apply orb_true_iff.
  destruct Hd as [Hd|Hd]; [left|right]; apply existsb_exists in Hd as (x & Hx & Ex); apply existsb_exists; exists x; auto.
Qed.

Theorem C188_X : forall n sda f g sd, check_X_domain n sda f = Ok sd -> at_least f g -> check_X_domain n (SDArr sd) g = Ok sd.
Proof.
  intros n sda f g sd H L. unfold check_X_domain in *. destruct (n =? 0); [discriminate|]. apply bind_ok in H as [sd0 [_ H]]. apply bind_ok in H as [m [Hm H]].
  destruct (length sd0 =? n) eqn:EL; [|discriminate]. cbn [negb] in H. destruct (check_allow_domains f sd0) eqn:EA; [|discriminate]. cbn [negb] in H.
  destruct (check_flags_again f g sd0 sd L H) as (-> & H'). cbn [bind]. rewrite Hm. cbn [bind]. rewrite EL. cbn [negb]. rewrite (allow_again f g sd0 L EA). exact H'.
Qed.
Theorem C188_X_y : forall n y sda masks f g sd, check_X_y_domain n y sda masks f = Ok sd -> at_least f g -> check_X_y_domain n y (SDArr sd) masks g = Ok sd /\ check_X_y_domain n y (SDArr sd) true g = Ok sd.
Proof.
  intros n y sda masks f g sd H L. unfold check_X_y_domain in *. destruct (n =? 0); [discriminate|]. destruct (length y =? 0); [discriminate|].
  destruct (negb masks && negb (forallb is_finite y)) eqn:EM; [discriminate|]. destruct (negb (n =? length y)); [discriminate|].
  apply bind_ok in H as [sd0 [_ H]]. apply bind_ok in H as [m [Hm H]]. destruct (check_flags_again f g sd0 sd L H) as (-> & H'). cbn [bind negb andb]. rewrite Hm. cbn [bind]. auto.
Qed.
(** Domains that were derived from the labels, or given as one number or as one entry per sample, also pass the check without labels. *)
Theorem C188_X_y_then_X : forall n y sda masks f g sd, check_X_y_domain n y sda masks f = Ok sd -> at_least f g -> f_domains g = None ->
  match sda with SDArr l => length l = n | _ => True end -> check_X_domain n (SDArr sd) g = Ok sd.
Proof.
  intros n y sda masks f g sd H L ND HL. unfold check_X_y_domain in H. destruct (n =? 0) eqn:EN; [discriminate|]. destruct (length y =? 0); [discriminate|].
  destruct (negb masks && negb (forallb is_finite y)) eqn:EM; [discriminate|]. destruct (Nat.eqb_spec n (length y)) as [En|]; [|discriminate]. cbn [negb] in H.
  apply bind_ok in H as [sd0 [H0 H]]. apply bind_ok in H as [m [Hm H]]. destruct (check_flags_again f g sd0 sd L H) as (-> & H').
  unfold check_X_domain. rewrite EN. cbn [bind]. rewrite Hm. cbn [bind].
  assert (LN : length sd0 = n).
  { destruct sda as [|z|l].
    - destruct (f_auto f); [|discriminate]. apply bind_ok in H0 as [ty [_ H0]]. cbn zeta in H0. rewrite np_setmask_scalar_ok in H0 by (rewrite repeat_length; destruct ty; now rewrite map_length). injection H0 as <-. rewrite map_length, combine_length, repeat_length. destruct ty; rewrite map_length; lia.
    - injection H0 as <-. rewrite repeat_length. auto.
    - injection H0 as <-. auto. }
  rewrite LN, Nat.eqb_refl. cbn [negb]. unfold check_allow_domains at 1. rewrite ND. exact H'.
Qed.

(** Classification labels with two masked samples, everything allowed except several sources; then everything allowed. *)
Example C188_ex : let f := mkFlags None true false true true true true in let g := mkFlags None true true true true true false in
  at_least f g /\ check_X_y_domain 4 (map VNum [0; -1; 1; -1]%Q) SDNone true f = Ok [1; -2; 1; -2]%Z /\ check_X_domain 4 (SDArr [1; -2; 1; -2]%Z) g = Ok [1; -2; 1; -2]%Z /\
  check_X_domain 2 SDNone f = Ok [-1; -1]%Z /\ check_X_domain 2 (SDScalar 3) f = Ok [3; 3]%Z.
Proof. cbv zeta. unfold at_least. cbn [f_source f_multi_source f_target f_multi_target f_common f_domains]. repeat split; auto; try discriminate. Qed.
