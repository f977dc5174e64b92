(** C73 for pipelines of arbitrary selectors. *)
From Coq Require Import String List ZArith QArith Bool Arith Lia.
From Verif Require Import Np NpFacts Labels Spec SpecFacts UtilsModel UtilsSpec UtilsProofs UtilsProofs2 SelectModel SelectSpec SelectProofs SelectProofs2 ThmSelect ChainModel.
Import ListNotations.
Local Open Scope nat_scope.
Local Open Scope list_scope.

(** ** Specification *)
(** A Shared or PerDomain step with mask_target_labels=True. *)
Definition masks {R} (s : sel_step R) : Prop := match s with StShared _ _ m _ | StPerDomain _ _ m _ => m = true | _ => False end.
(** A SelectSource step whose estimator returns an array (as estimators that are not adapters do). *)
Definition source_only {R} (s : sel_step R) : Prop :=
  match s with StSource _ _ _ run => forall k o, run k = Ok o -> exists X, o = OArr X | _ => False end.

(** ** Proofs *)
Lemma masking_step {R} (s : sel_step R) c y1 y2 ps sd : masks s -> get_sd ps = Some sd -> sd <> [] ->
  length y1 = length sd -> length y2 = length sd -> same_kind discrete_labels continuous_labels y1 y2 ->
  rows_of is_source sd y1 = rows_of is_source sd y2 -> sel_step_fit s c (Some y1) ps = sel_step_fit s c (Some y2) ps.
Proof.
  intros Hs G N L1 L2 K A. destruct s as [route tr mask run|route tr mask run| | |]; try contradiction; cbn [masks] in Hs; subst mask; cbn [sel_step_fit].
  - now rewrite (C13_shared_no_target_label_leak R route tr c y1 y2 ps sd G N L1 L2 K A).
  - now rewrite (C13_per_domain_no_target_label_leak R route tr c y1 y2 ps sd G N L1 L2 K A).
Qed.

(** Once the container carries labels, the labels given to a SelectSource step do not matter. *)
Lemma source_step_carried {R} (s : sel_step R) (c : @container R) y1 y2 ps l : source_only s -> c_labels c = Some l ->
  (exists e, sel_step_fit s c y1 ps = Err e /\ sel_step_fit s c y2 ps = Err e) \/
  exists k c' l', sel_step_fit s c y1 ps = Ok (k, y1, c') /\ sel_step_fit s c y2 ps = Ok (k, y2, c') /\ c_labels c' = Some l'.
Proof.
  intros Hs Hl. destruct s as [| |route tr mask run| |]; try contradiction. cbn [source_only] in Hs. cbn [sel_step_fit].
  assert (E : select_domain_fit route tr true mask c y1 ps = select_domain_fit route tr true mask c y2 ps) by (unfold select_domain_fit, merge_out; now rewrite Hl).
  rewrite E. destruct (select_domain_fit route tr true mask c y2 ps) as [[c2 k]|e] eqn:F; [|left; exists e; now split]. cbn [bind snd fst].
  destruct (run k) as [o|e] eqn:Ro; [|left; exists e; now split]. right. cbn [bind]. destruct (Hs _ _ Ro) as [X ->].
  assert (exists l', c_labels c2 = Some l') as [l' Hl'].
  { unfold select_domain_fit, merge_out in F. rewrite Hl in F. apply bind_ok in F as [m [_ F]]. apply bind_ok in F as [[[X2 y'] ps'] [Ha F]].
    apply bind_ok in F as [r2 [_ F]]. injection F as <- _. unfold apply_domain_masks in Ha. apply bind_ok in Ha as [X' [_ Ha]]. apply bind_ok in Ha as [yy [Hy Ha]].
    apply bind_ok in Ha as [pp [_ Ha]]. injection Ha as _ <- _. cbn [opt_map] in Hy. apply bind_ok in Hy as [z [_ Hy]]. injection Hy as <-. now exists z. }
  exists [k], (merge_in c2 (OArr X)), l'. auto.
Qed.
(** The first SelectSource step of a pipeline looks at the labels of the sources only. *)
Lemma source_step_first {R} (s : sel_step R) X y1 y2 ps sd : source_only s -> get_sd ps = Some sd -> sd <> [] ->
  length y1 = length sd -> length y2 = length sd -> rows_of is_source sd y1 = rows_of is_source sd y2 ->
  (exists e, sel_step_fit s (from_array X) (Some y1) ps = Err e /\ sel_step_fit s (from_array X) (Some y2) ps = Err e) \/
  exists k c' l', sel_step_fit s (from_array X) (Some y1) ps = Ok (k, Some y1, c') /\ sel_step_fit s (from_array X) (Some y2) ps = Ok (k, Some y2, c') /\ c_labels c' = Some l'.
Proof.
  intros Hs G N L1 L2 A. destruct s as [| |route tr mask run| |]; try contradiction. cbn [source_only] in Hs. cbn [sel_step_fit].
  assert (Y : forall y : list val, length y = length sd -> np_select (map is_source sd) y = Ok (rows_of is_source sd y)).
  { intros y L. rewrite rows_of_select. unfold np_select. rewrite map_length, L, Nat.eqb_refl. reflexivity. }
  assert (E : select_domain_fit route tr true mask (from_array X) (Some y1) ps = select_domain_fit route tr true mask (from_array X) (Some y2) ps /\
              forall c2 k, select_domain_fit route tr true mask (from_array X) (Some y2) ps = Ok (c2, k) -> c_labels c2 = Some (rows_of is_source sd y2)).
  { unfold select_domain_fit, merge_out. cbn [from_array c_X c_labels c_meta dict_update fold_left]. rewrite G, extract_source_ok by auto. cbn [bind].
    unfold apply_domain_masks. cbn [opt_map]. rewrite !Y, A by auto. split; [reflexivity|]. intros c2 k F. destruct (np_select _ X) as [X'|]; [|discriminate].
    cbn [bind] in F. destruct (map_params _ ps) as [p'|]; [|discriminate]. cbn [bind] in F. apply bind_ok in F as [r2 [_ F]]. injection F as <- _. reflexivity. }
  destruct E as [E Hc]. rewrite E. destruct (select_domain_fit route tr true mask (from_array X) (Some y2) ps) as [[c2 k]|e] eqn:F; [|left; exists e; now split]. cbn [bind snd fst].
  destruct (run k) as [o|e] eqn:Ro; [|left; exists e; now split]. right. cbn [bind]. destruct (Hs _ _ Ro) as [X' ->].
  exists [k], (merge_in c2 (OArr X')), (rows_of is_source sd y2). split; [reflexivity|]. split; [reflexivity|]. now apply (Hc c2 k).
Qed.

(** ** C73 *)

(** Pipelines of any selectors, in which a masking step comes first or after SelectSource steps: two label vectors of the same kind that
    agree on the sources lead to the same calls on all wrapped estimators, whatever the estimators return and whatever selectors follow. *)
Theorem C73_any_selectors_partial : forall (R : Type) (before : list (sel_step R)) s after (X : list R) y1 y2 ps sd,
  Forall source_only before -> masks s ->
  get_sd ps = Some sd -> sd <> [] -> length y1 = length sd -> length y2 = length sd ->
  same_kind discrete_labels continuous_labels y1 y2 ->
  rows_of is_source sd y1 = rows_of is_source sd y2 ->
  sel_chain (before ++ s :: after) (from_array X) (Some y1) ps = sel_chain (before ++ s :: after) (from_array X) (Some y2) ps.
Proof.
  intros R before s after X y1 y2 ps sd HB Hs G N L1 L2 K A.
  assert (Carried : forall before c l, Forall source_only before -> c_labels c = Some l ->
    sel_chain (before ++ s :: after) c (Some y1) ps = sel_chain (before ++ s :: after) c (Some y2) ps).
  { clear HB before X. induction before as [|b before IH]; intros c l HB Hl; cbn [app sel_chain].
    - now rewrite (masking_step s c y1 y2 ps sd).
    - inversion HB as [|? ? Hb HB']; subst. destruct (source_step_carried b c (Some y1) (Some y2) ps l Hb Hl) as [(e & -> & ->)|(k & c' & l' & -> & -> & Hl')]; [reflexivity|].
      cbn [bind]. now rewrite (IH c' l'). }
  destruct before as [|b before]; cbn [app sel_chain].
  - now rewrite (masking_step s (from_array X) y1 y2 ps sd).
  - inversion HB as [|? ? Hb HB']; subst. destruct (source_step_first b X y1 y2 ps sd) as [(e & -> & ->)|(k & c' & l' & -> & -> & Hl')]; auto.
    cbn [bind]. now rewrite (Carried before c' l').
Qed.

(** SelectSource, then a masking Shared step that removes masked samples. *)
Example C73_any_selectors_ex :
  let st := [StSource (fun _ => Ok []) true true (fun k => Ok (OArr (map (fun x => x * 2) (k_X k))));
             StShared (fun _ => Ok []) false true (fun k => Ok (OArr (k_X k)))] in
  Forall source_only [hd (StTarget (fun _ => Ok []) true (fun k => Ok (OArr (k_X k)))) st] /\
  sel_chain st (from_array [1; 2; 3]) (Some [VNum 0; VNum 5; VNum 1]) (dom_params [1; -2; 1]%Z)
  = Ok [[mkCall [1; 3] (Some [VNum 0; VNum 1]) []]; [mkCall [2; 6] (Some [VNum 0; VNum 1]) []]].
Proof. split; [|reflexivity]. constructor; [|constructor]. intros k o E. cbn in E. injection E as <-. now eexists. Qed.
