(** Theorems C239: scores computed on the targets do not depend on the sources. *)
From Coq Require Import String List ZArith QArith Bool Arith Lia Reals Lra.
From Verif Require Import Np NpFacts Labels Spec SpecFacts UtilsModel UtilsSpec SelectModel RVec MetricsModel MetricsProofs.
From Verif Require ThmName.
Import ListNotations.
Local Open Scope nat_scope.
Local Open Scope list_scope.

(** Two data sets that are well formed and have the same target samples with the same domain labels, in the same order; the sources differ in number, place, features
    and labels. *)
Record same_targets {Row} (X : list Row) (y : list val) (sd : list Z) (X' : list Row) (y' : list val) (sd' : list Z) : Prop := mkST {
  st_ne : sd <> [] /\ sd' <> [];
  st_len : length X = length sd /\ length y = length sd /\ length X' = length sd' /\ length y' = length sd';
  st_X : rows_of is_target sd X = rows_of is_target sd' X';
  st_sd : filter is_target sd = filter is_target sd' }.
Lemma both_parts {Row} (X : list Row) y sd X' y' sd' : same_targets X y sd X' y' sd' ->
  target_part Row X y (SDArr sd) = Ok (map is_source sd, rows_of is_target sd X, filter is_target sd) /\
  target_part Row X' y' (SDArr sd') = Ok (map is_source sd', rows_of is_target sd X, filter is_target sd).
Proof.
  intros [[N N'] (L1 & L2 & L3 & L4) EX ES]. rewrite !target_part_given by (auto; lia). rewrite !rows_of_self, EX, ES. auto.
Qed.

Theorem C239_supervised : forall Row L sign (score score' : list Row -> list L -> list Z -> res R) X y sd tl X' y' sd' tl',
  same_targets X y sd X' y' sd' -> length tl = length sd -> length tl' = length sd' -> rows_of is_target sd tl = rows_of is_target sd' tl' ->
  (let Xt := rows_of is_target sd X in forall l z, score Xt l z = score' Xt l z) ->
  supervised_score Row sign score X y (SDArr sd) tl = supervised_score Row sign score' X' y' (SDArr sd') tl'.
Proof.
  intros Row L sign f f' X y sd tl X' y' sd' tl' H L1 L2 E F. destruct (both_parts _ _ _ _ _ _ H) as [P P']. unfold supervised_score. rewrite P, P'. cbn [bind].
  rewrite !select_target by auto. cbn [bind]. rewrite <- E, F. reflexivity.
Qed.
Theorem C239_entropy : forall Row sign (pp pp' : list Row -> list Z -> res (list (list R))) lp lp' red X y sd X' y' sd',
  same_targets X y sd X' y' sd' ->
  (let Xt := rows_of is_target sd X in (forall z, pp Xt z = pp' Xt z) /\
     match lp, lp' with None, None => True | Some l, Some l' => forall z, l Xt z = l' Xt z | _, _ => False end) ->
  entropy_score Row sign pp lp red X y (SDArr sd) = entropy_score Row sign pp' lp' red X' y' (SDArr sd').
Proof.
  intros Row sign f f' l l' red X y sd X' y' sd' H [F G]. destruct (both_parts _ _ _ _ _ _ H) as [P P']. unfold entropy_score. rewrite P, P'. cbn [bind].
  rewrite F. destruct (f' _ _); [|reflexivity]. cbn [bind]. destruct l, l'; try contradiction; [rewrite G|]; reflexivity.
Qed.
Theorem C239_soft_neighbourhood : forall Row sign (pp pp' : list Row -> list Z -> res (list (list R))) T X y sd X' y' sd',
  same_targets X y sd X' y' sd' -> (let Xt := rows_of is_target sd X in forall z, pp Xt z = pp' Xt z) ->
  snd_score Row sign pp T X y (SDArr sd) = snd_score Row sign pp' T X' y' (SDArr sd').
Proof.
  intros Row sign f f' T X y sd X' y' sd' H F. destruct (both_parts _ _ _ _ _ _ H) as [P P']. unfold snd_score. rewrite P, P'. cbn [bind]. now rewrite F.
Qed.
(** MixVal and MaNo read the labels to refuse regression; class labels are integers, masks included. *)
Theorem C239_mixval : forall sign (predict predict' : list (list R) -> list Z -> res (list Z)) scorer scorer' alpha ice perm X l sd X' l' sd',
  same_targets X (map ThmName.cls l) sd X' (map ThmName.cls l') sd' ->
  (let Xt := rows_of is_target sd X in forall z, predict Xt z = predict' Xt z) -> (forall rows labels z, scorer rows labels z = scorer' rows labels z) ->
  mixval_score sign predict scorer alpha ice perm X (map ThmName.cls l) (SDArr sd) = mixval_score sign predict' scorer' alpha ice perm X' (map ThmName.cls l') (SDArr sd').
Proof.
  intros sign f f' g g' al ice perm X l sd X' l' sd' H F G. destruct (both_parts _ _ _ _ _ _ H) as [P P']. destruct H as [[N N'] (_ & L2 & _ & L4) _ _]. rewrite map_length in L2, L4.
  unfold mixval_score. rewrite P, P'. cbn [bind]. rewrite !ThmName.type_cls. destruct l; [destruct sd; [congruence|discriminate L2]|]. destruct l'; [destruct sd'; [congruence|discriminate L4]|].
  cbn [bind]. rewrite F. destruct (f' _ _) as [la|]; [|reflexivity]. cbn [bind]. destruct (np_take perm la) as [lb|]; [|reflexivity]. cbn [bind].
  destruct (np_map2 Z.eqb la lb) as [eqs|]; [|reflexivity]. cbn [bind]. destruct (np_take perm _) as [Xp|]; [|reflexivity]. cbn [bind].
  destruct (np_map2_rows _ _ Xp) as [mi|]; [|reflexivity]. cbn [bind].
  assert (Q : forall idx ml, mix_part g idx mi ml = mix_part g' idx mi ml).
  { intros idx ml. unfold mix_part. destruct idx; [reflexivity|]. destruct (np_take _ mi); [|reflexivity]. cbn [bind]. destruct (np_take _ ml); [|reflexivity]. cbn [bind]. now rewrite G. }
  destruct ice; now rewrite ?Q.
Qed.
Definition answers {Row} (est : (list Row -> res (list (list R))) + (list Row -> list Z -> res (list (list R)))) (X : list Row) (z : list Z) : bool * res (list (list R)) :=
  match est with inl f => (true, f X) | inr f => (false, f X z) end.
Theorem C239_mano : forall Row sign p threshold est est' X l sd X' l' sd',
  same_targets X (map ThmName.cls l) sd X' (map ThmName.cls l') sd' ->
  (let Xt := rows_of is_target sd X in forall z, answers est Xt z = answers est' Xt z) ->
  mano_score Row sign p threshold est X (map ThmName.cls l) (SDArr sd) = mano_score Row sign p threshold est' X' (map ThmName.cls l') (SDArr sd').
Proof.
  intros Row sign p t e e' X l sd X' l' sd' H F. destruct (both_parts _ _ _ _ _ _ H) as [P P']. destruct H as [[N N'] (_ & L2 & _ & L4) _ _]. rewrite map_length in L2, L4.
  unfold mano_score. destruct (Rleb p 0); [reflexivity|]. rewrite P, P'. cbn [bind]. rewrite !ThmName.type_cls.
  destruct l; [destruct sd; [congruence|discriminate L2]|]. destruct l'; [destruct sd'; [congruence|discriminate L4]|]. cbn [bind].
  specialize (F (filter is_target sd)). unfold answers in F. destruct e, e'; injection F as F; try discriminate; now rewrite F.
Qed.

(** Two sources before and between the targets against a single one after them, of other domains and with other labels. *)
Example C239_ex : same_targets [1; 7; 2; 8]%Z (map ThmName.cls [0; -1; 1; -1]%Z) [1; -2; 1; -3]%Z [7; 8; 50]%Z (map ThmName.cls [-1; -1; 4]%Z) [-2; -3; 9]%Z /\
  (forall sign, exists s, snd_score Z sign (fun X _ => Ok (map (fun x => [IZR x; 1%R]) X)) 1 [1; 7; 2; 8]%Z (map ThmName.cls [0; -1; 1; -1]%Z) (SDArr [1; -2; 1; -3]%Z) = Ok s /\
     snd_score Z sign (fun X _ => Ok (map (fun x => [if (x =? 50)%Z then 0%R else IZR x; 1%R]) X)) 1 [7; 8; 50]%Z (map ThmName.cls [-1; -1; 4]%Z) (SDArr [-2; -3; 9]%Z) = Ok s).
Proof.
  split; [constructor; cbn; repeat split; discriminate|]. intros sign. eexists. split; reflexivity.
Qed.
