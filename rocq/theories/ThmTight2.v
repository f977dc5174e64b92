(** C52: label propagation on labels as they are given. C148: which categories a request means. C204: the sign rules of the floating-point operations used in the theorems. *)
From Coq Require Import List ZArith QArith Qround Qreals Bool Arith Lia Reals Lra Permutation.
From Flocq Require Import Core.
From Verif Require Import Np Labels Spec SpecFacts SelectModel OTModel OTSpec OTProofs ThmOT UnitModel RVec RVecFacts FloatModel FiniteModel ThmFinite FetchModel FetchSpec ThmFetch.
Import ListNotations.
Local Open Scope nat_scope.
Local Open Scope list_scope.

(** What a user asks for: everything, the ten classes shared with Caltech, or a list. *)
Definition asked (caltech : list Z) (p : preset) (c : Z) : Prop :=
  match p with CatNone | CatAll => True | CatCaltech => In c caltech | CatList l => In c l end.
(** The categories of the data set returned are those of the domain that were asked for. *)
Theorem C148_categories : forall Row by_name perm dim caltech dom p fs (b : bunch Row), (forall l, Permutation (by_name l) l) -> (forall pm, perm = Some pm -> shuffling pm) ->
  load_office31 Row by_name perm dim caltech dom p fs = inl b ->
  forall c, In c (u_names b) <-> (exists f, In f fs /\ of_dom Row f = dom /\ of_cat Row f = c) /\ asked caltech p c.
Proof.
  intros Row by_name perm dim caltech dom p fs b Hb Hp H c. rewrite (proj1 (proj2 (C148_names Row by_name perm Hp dim caltech dom p fs b H)) c). destruct p; reflexivity.
Qed.
Example C148_categories_ex : exists b, load_office31 nat (fun l => l) None 4 [1; 2]%Z 0%Z (CatList [7; 3]%Z) [mkOF 0%Z 3%Z 0%Z true 4 10; mkOF 0%Z 5%Z 0%Z true 4 20; mkOF 1%Z 7%Z 0%Z true 4 30] = inl b /\ u_names b = [3]%Z /\ u_X b = [10].
Proof. eexists. split; [reflexivity|split; reflexivity]. Qed.

Lemma xround_opp x : xround (- x) = xopp (xround x).
Proof.
  unfold xround. rewrite f64_opp. set (v := f64 x). set (B := bpow radix2 1024). assert (0 < B)%R by apply bpow_gt_0.
  destruct (Rleb B (- v)) eqn:E1; destruct (Rleb B v) eqn:E2; destruct (Rleb v (- B)) eqn:E3; destruct (Rleb (- v) (- B)) eqn:E4; cbn; try reflexivity;
    repeat match goal with E : Rleb _ _ = true |- _ => apply Rleb_iff in E | E : Rleb ?a ?b = false |- _ => assert (~ (a <= b)%R) by (rewrite <- Rleb_iff, E; discriminate); clear E end; lra.
Qed.
(** Changing the sign of an operand changes the sign of the result (for the divisor: unless it is zero), and an infinite
    value times or over a positive number is that infinite value. *)
Theorem C204_signs : (forall a b, xmul (xopp a) b = xopp (xmul a b)) /\ (forall a b, xmul a b = xmul b a) /\ (forall a b, xdiv (xopp a) b = xopp (xdiv a b)) /\
  (forall a y, y <> 0%R -> xdiv a (Fin (- y)) = xopp (xdiv a (Fin y))) /\ (forall a b, xadd (xopp a) (xopp b) = xopp (xadd a b)) /\
  (forall y, (0 < y)%R -> xmul PInf (Fin y) = PInf /\ xdiv PInf (Fin y) = PInf) /\ (forall x, (0 < x)%R -> xdiv (Fin x) (Fin 0) = PInf).
Proof.
  assert (Q : forall x, Reqb (- x) 0 = Reqb x 0) by (intros x; destruct (Reqb (- x) 0) eqn:A; destruct (Reqb x 0) eqn:B; auto; [apply Reqb_iff in A; assert (x = 0)%R by lra; apply Reqb_iff in H; congruence|apply Reqb_iff in B; assert (- x = 0)%R by lra; apply Reqb_iff in H; congruence]).
  assert (I : forall p y, inf_times p (- y) = xopp (inf_times p y)).
  { intros p y. unfold inf_times. rewrite Q. destruct (Reqb y 0) eqn:E; [reflexivity|]. assert (y <> 0)%R by (rewrite <- Reqb_iff, E; discriminate).
    destruct (Rltb 0 (- y)) eqn:A; destruct (Rltb 0 y) eqn:B; destruct p; cbn; try reflexivity; exfalso;
    repeat match goal with E : Rltb _ _ = true |- _ => apply Rltb_iff in E | E : Rltb ?a ?b = false |- _ => assert (~ (a < b)%R) by (rewrite <- Rltb_iff, E; discriminate); clear E end; lra. }
  assert (N : forall p y, inf_times (negb p) y = xopp (inf_times p y)) by (intros [|] y; unfold inf_times; destruct (Reqb y 0); [reflexivity|destruct (Rltb 0 y); reflexivity|reflexivity|destruct (Rltb 0 y); reflexivity]).
  split; [|split; [|split; [|split; [|split; [|split]]]]].
  - intros [x| | |] [y| | |]; cbn; auto; try (rewrite <- xround_opp; f_equal; ring); try apply I; try apply (N true); apply (N false).
  - intros [x| | |] [y| | |]; cbn; auto. f_equal. ring.
  - intros [x| | |] [y| | |]; cbn; auto; try (f_equal; ring).
    + rewrite Q. destruct (Reqb y 0) eqn:E; [|rewrite <- xround_opp; f_equal; unfold Rdiv; ring]. destruct (Reqb x 0) eqn:E'; [reflexivity|]. assert (x <> 0)%R by (rewrite <- Reqb_iff, E'; discriminate).
      destruct (Rltb 0 (- x)) eqn:A; destruct (Rltb 0 x) eqn:B; try reflexivity; exfalso;
      repeat match goal with E : Rltb _ _ = true |- _ => apply Rltb_iff in E | E : Rltb ?a ?b = false |- _ => assert (~ (a < b)%R) by (rewrite <- Rltb_iff, E; discriminate); clear E end; lra.
    + destruct (Rleb 0 y); reflexivity.
    + destruct (Rleb 0 y); reflexivity.
  - intros [x| | |] y Hy; cbn; auto.
    + rewrite Q. assert (Reqb y 0 = false) as -> by (destruct (Reqb y 0) eqn:E; [apply Reqb_iff in E; lra|reflexivity]). rewrite <- xround_opp. f_equal. field. auto.
    + destruct (Rleb 0 (- y)) eqn:A; destruct (Rleb 0 y) eqn:B; try reflexivity; exfalso;
      repeat match goal with E : Rleb _ _ = true |- _ => apply Rleb_iff in E | E : Rleb ?a ?b = false |- _ => assert (~ (a <= b)%R) by (rewrite <- Rleb_iff, E; discriminate); clear E end; lra.
    + destruct (Rleb 0 (- y)) eqn:A; destruct (Rleb 0 y) eqn:B; try reflexivity; exfalso;
      repeat match goal with E : Rleb _ _ = true |- _ => apply Rleb_iff in E | E : Rleb ?a ?b = false |- _ => assert (~ (a <= b)%R) by (rewrite <- Rleb_iff, E; discriminate); clear E end; lra.
  - intros [x| | |] [y| | |]; cbn; auto. rewrite <- xround_opp. f_equal. ring.
  - intros y Hy. split; cbn; [|assert (Rleb 0 y = true) as -> by (apply Rleb_iff; lra); reflexivity]. unfold inf_times.
    assert (Reqb y 0 = false) as -> by (destruct (Reqb y 0) eqn:E; [apply Reqb_iff in E; lra|reflexivity]). assert (Rltb 0 y = true) as -> by (apply Rltb_iff; lra). reflexivity.
  - intros x Hx. cbn. assert (Reqb 0 0 = true) as -> by (now apply Reqb_iff). assert (Reqb x 0 = false) as -> by (destruct (Reqb x 0) eqn:E; [apply Reqb_iff in E; lra|reflexivity]). assert (Rltb 0 x = true) as -> by (apply Rltb_iff; lra). reflexivity.
Qed.

(** Label propagation decides by the source labels: if they are numbers, every target gets the average that the plan between the
    weighted sources and targets gives; if they are classes, it gets the heaviest one. *)
Theorem C52_by_values : forall {Xrow} (plan : list Xrow -> list Xrow -> list R -> list R -> res (list (list R))) X y sw sd G ty,
  sd <> [] -> length X = length sd -> length y = length sd -> (forall w, sw = Some w -> length w = length sd) -> 0 < how_many is_source sd ->
  let b := proportions (how_many is_target sd) (opt_rows is_target sd sw) in
  plan (rows_of is_source sd X) (rows_of is_target sd X) (proportions (how_many is_source sd) (opt_rows is_source sd sw)) b = Ok G ->
  length G = how_many is_source sd -> find_y_type1 (rows_of is_source sd y) = Ok ty ->
  exists out, otlp_transform plan X y sw sd = Ok out /\
    match ty with
    | CONTINUOUS => forall r, rows_of is_source sd y = map VNum r ->
        laid_out sd (repeat None (how_many is_source sd)) (map (fun j => Some (moved_label G (map Q2R r) b j)) (seq 0 (how_many is_target sd))) out
    | DISCRETE => forall c, rows_of is_source sd y = map (fun z => VNum (inject_Z z)) c ->
        exists labels, laid_out sd (repeat (Some (-1)%R) (how_many is_source sd)) (map (fun z => Some (IZR z)) labels) out /\ length labels = how_many is_target sd /\
          forall j, j < how_many is_target sd -> heaviest G c j (nth j labels 0%Z)
    end.
Proof.
  intros Xrow plan X y sw sd G ty Hsd HX Hy Hw Hs b HG LG Ty. unfold otlp_transform. rewrite otlp_parts_ok by auto. cbn [bind]. rewrite Ty. cbn [bind]. destruct ty.
  - destruct (C52_regression_labels plan X (map val_number y) sw sd G) as (out & E & L); auto; [now rewrite map_length|]. rewrite E. exists out. split; [reflexivity|]. intros r Er.
    rewrite SpecFacts.rows_of_map, Er, map_map in L. exact L.
  - destruct (C52_discrete_labels plan X (map val_class y) sw sd G) as (labels & out & E & L & Ll & H); auto; [now rewrite map_length|]. rewrite E. cbn [bind]. eexists. split; [reflexivity|]. intros c Ec. exists labels.
    assert (Q : rows_of is_source sd (map val_class y) = c).
    { rewrite SpecFacts.rows_of_map, Ec, map_map. rewrite <- (map_id c) at 2. apply map_ext. intros z. cbn. apply Qfloor_Z. }
    rewrite Q in H. split; [|auto]. destruct L as (L1 & L2 & L3). split; [now rewrite map_length|]. split.
    + rewrite SpecFacts.rows_of_map, L2. clear. induction (how_many is_source sd) as [|k IH]; [reflexivity|]. cbn. now rewrite IH.
    + now rewrite SpecFacts.rows_of_map, L3.
Qed.
(** Sources 1/2 and 1 of weights 1 and 3, one target: the average is 7/8. *)
Example C52_by_values_ex : exists out, otlp_transform (fun (_ _ : list nat) a _ => Ok (map (fun x => [x]) a)) [10; 20; 30] [VNum (1 # 2); VNum 1; VNan] (Some [1; 3; 5]%R) [1; 1; -2]%Z = Ok out /\
  rows_of is_target [1; 1; -2]%Z out = [Some (7 / 8)%R].
Proof.
  destruct (C52_by_values (fun (_ _ : list nat) a _ => Ok (map (fun x => [x]) a)) [10; 20; 30] [VNum (1 # 2); VNum 1; VNan] (Some [1; 3; 5]%R) [1; 1; -2]%Z (map (fun x => [x]) (proportions 2 (Some [1; 3]%R))) CONTINUOUS) as (out & E & H); try reflexivity; try discriminate; try (cbn; lia).
  - intros w [= <-]. reflexivity.
  - exists out. split; [exact E|]. destruct (H [1 # 2; 1]%Q eq_refl) as (_ & _ & ->). cbn. unfold moved_label. cbn. unfold Q2R. cbn. f_equal. f_equal. field; lra.
Qed.
