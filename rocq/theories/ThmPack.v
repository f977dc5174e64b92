(** Theorem C168: packing torch tensors. *)
From Coq Require Import List ZArith QArith Bool Arith Lia.
From Verif Require Import Np NpFacts Labels DataModel DeepModel PackModel PackSpec.
Import ListNotations.
Local Open Scope nat_scope.
Local Open Scope list_scope.

Section C168.
  Variable Row : Type.
  Variable row_ok : Row -> bool.
  Notation tdom := (tdom Row).
  Notation pack_any := (pack_any row_ok).

Lemma torch_cat_ok {A} (l : list (kind * list A)) : l <> [] -> Forall (fun b => fst b = KTensor) l -> torch_cat l = Ok (concat (map snd l)).
Proof.
  intros N F. unfold torch_cat. replace (forallb (fun b => is_tensor (fst b)) l) with true; [destruct l; congruence|].
  symmetry. apply forallb_forall. rewrite Forall_forall in F. intros b I. rewrite (F b I). reflexivity.
Qed.
Lemma torch_cat_err {A} (l : list (kind * list A)) b : In b l -> fst b = KNumpy -> torch_cat l = Err TypeError.
Proof.
  intros I E. unfold torch_cat. destruct l as [|a l]; [contradiction|].
  replace (forallb (fun b => is_tensor (fst b)) (a :: l)) with false; [reflexivity|]. symmetry. apply Bool.not_true_iff_false. intros F.
  rewrite forallb_forall in F. specialize (F b I). rewrite E in F. discriminate.
Qed.
Lemma np_concatenate_ok {A} (l : list (kind * list A)) : l <> [] -> np_concatenate l = Ok (concat (map snd l)).
Proof. destruct l; [congruence | reflexivity]. Qed.

(** The blocks of tensor domains, with labels left alone. *)
Definition tensor_block (s : Z) (p : nat * tdom) : block Row :=
  (KTensor, x_rows (snd p), (KTensor, match y_given (snd p) with Some (_, _, y) => y | None => [] end), repeat (s * Z.of_nat (fst p))%Z (length (x_rows (snd p)))).
Lemma source_blocks_tensor l : tensors l -> map (source_block Row) l = map (tensor_block 1) l.
Proof.
  intros F. apply map_ext_in. intros [i d] I. unfold tensors in F. rewrite Forall_forall in F. destruct (F _ I) as (K & dt & y & E & L). cbn [fst snd] in *.
  unfold source_block, tensor_block, t_labels. cbn [fst snd]. rewrite E, K, L, Z.mul_1_l. reflexivity.
Qed.
Lemma target_blocks_tensor m l : tensors l -> target_blocks Row m (None, None) l = map (tensor_block (-1)) l.
Proof.
  induction 1 as [|[i d] l (K & dt & y & E & L) F IH]; [reflexivity|]. cbn [fst snd] in *. cbn [target_blocks map].
  assert (X : (if m then t_mask Row (None, None) d else (let '(k, _, y0) := t_labels Row d in (k, y0), (None, None))) = ((KTensor, y), (None, None))).
  { destruct m; unfold t_mask, t_labels; rewrite E; reflexivity. }
  rewrite X, IH. unfold tensor_block. cbn [fst snd]. rewrite E, K, L. replace (-1 * Z.of_nat i)%Z with (- Z.of_nat i)%Z by lia. reflexivity.
Qed.
Lemma tensor_blocks_parts S T : S ++ T <> [] -> let b := map (tensor_block 1) S ++ map (tensor_block (-1)) T in
  cat3 Row (@torch_cat) b = Ok (features (S ++ T), labels (S ++ T), signed 1 S ++ signed (-1) T) /\
  cat3 Row (@np_concatenate) b = Ok (features (S ++ T), labels (S ++ T), signed 1 S ++ signed (-1) T) /\
  match b with (KTensor, _, _, _) :: _ => True | _ => False end.
Proof.
  intros N b. assert (Nb : b <> []) by (unfold b; destruct S, T; cbn in *; congruence).
  assert (Fx : map snd (map (fun t : block Row => fst (fst t)) b) = map (fun p => x_rows (snd p)) (S ++ T)).
  { unfold b. rewrite map_map, map_app, !map_map, map_app. reflexivity. }
  assert (Fy : map snd (map (fun t : block Row => snd (fst t)) b) = map (fun p => match y_given (snd p) with Some (_, _, y) => y | None => [] end) (S ++ T)).
  { unfold b. rewrite map_map, map_app, !map_map, map_app. reflexivity. }
  assert (Fs : concat (map snd b) = signed 1 S ++ signed (-1) T).
  { unfold b, signed. rewrite map_app, concat_app, !map_map, !flat_map_concat_map. reflexivity. }
  assert (Kx : Forall (fun t : kind * list Row => fst t = KTensor) (map (fun t : block Row => fst (fst t)) b)).
  { apply Forall_forall. intros t I. apply in_map_iff in I. destruct I as (u & <- & I). unfold b in I. apply in_app_or in I. destruct I as [I|I]; apply in_map_iff in I; destruct I as (p & <- & _); reflexivity. }
  assert (Ky : Forall (fun t : kind * list val => fst t = KTensor) (map (fun t : block Row => snd (fst t)) b)).
  { apply Forall_forall. intros t I. apply in_map_iff in I. destruct I as (u & <- & I). unfold b in I. apply in_app_or in I. destruct I as [I|I]; apply in_map_iff in I; destruct I as (p & <- & _); reflexivity. }
  assert (Nm : forall {A} (f : block Row -> A), map f b <> []) by (intros A f; destruct b; cbn; congruence).
  split; [|split].
  - unfold cat3. rewrite torch_cat_ok, torch_cat_ok by auto. cbn [bind]. rewrite Fx, Fy, Fs. unfold features, labels. rewrite !flat_map_concat_map. reflexivity.
  - unfold cat3. rewrite np_concatenate_ok, np_concatenate_ok by auto. cbn [bind]. rewrite Fx, Fy, Fs. unfold features, labels. rewrite !flat_map_concat_map. reflexivity.
  - unfold b. destruct S as [|a S]; [destruct T as [|a T]; [exfalso; apply N; reflexivity|exact I]|exact I].
Qed.

(** Domains of tensors, labels not hidden: every return type gives the rows, labels and signed domain labels of the domains, one after the
    other, in the container asked for. *)
Theorem C168_tensors : forall S T mask, tensors S -> tensors T -> S ++ T <> [] ->
  let X := features (S ++ T) in let y := labels (S ++ T) in let sd := signed 1 S ++ signed (-1) T in
  pack_any S T false RAuto mask = Ok (PkTensors X y sd) /\ pack_any S T false RTensor mask = Ok (PkTensors X y sd) /\
  pack_any S T false RArray mask = Ok (PkArrays X y sd) /\ pack_any S T false RBunch mask = Ok (PkBunch X y sd) /\
  (forall d, dataset Row row_ok X (Some y) (DomArr sd) None = Ok d -> pack_any S T false RDeep mask = Ok (PkDeep d)) /\
  pack_any S T false RInvalid mask = Err ValueError.
Proof.
  intros S T mask HS HT N X y sd. destruct (tensor_blocks_parts S T N) as (A & B & H).
  assert (E : map (source_block Row) S ++ target_blocks Row false (mask, None) T = map (tensor_block 1) S ++ map (tensor_block (-1)) T).
  { rewrite (source_blocks_tensor S HS). f_equal. rewrite <- (target_blocks_tensor false T HT). clear. generalize (mask, @None ydt). generalize (@None val, @None ydt).
    induction T as [|[i d] T IH]; intros p q; [reflexivity|]. cbn [target_blocks]. destruct (t_labels Row d) as [[k dt] y]. f_equal. apply IH. }
  unfold PackModel.pack_any. rewrite E. set (b := map (tensor_block 1) S ++ map (tensor_block (-1)) T) in *. fold X y sd in A, B. rewrite A, B. cbn [bind].
  repeat split; try reflexivity.
  - destruct b as [|[[[[|] r] u] v] b]; try contradiction. reflexivity.
  - intros d Ed. rewrite Ed. reflexivity.
Qed.

(** REFUTED: with mask_target_labels=True the labels of target tensors are not hidden: the result is that without masking, for every return type. *)
Theorem C168_labels_visible_refuted : forall S T rt, tensors S -> tensors T -> S ++ T <> [] ->
  pack_any S T true rt None = pack_any S T false rt None.
Proof.
  intros S T rt HS HT N. unfold PackModel.pack_any. rewrite !(target_blocks_tensor _ T HT). reflexivity.
Qed.

Lemma target_blocks_value m l : target_blocks Row true (Some m, None) l =
  map (fun p => (x_kind (snd p), x_rows (snd p), (KNumpy, repeat m (length (x_rows (snd p)))), repeat (- Z.of_nat (fst p))%Z (length (x_rows (snd p))))) l.
Proof.
  induction l as [|[i d] l IH]; [reflexivity|]. cbn [target_blocks map fst snd]. unfold t_mask. destruct (t_labels Row d) as [[k dt] y]. cbn [fst snd].
  rewrite IH, repeat_length. reflexivity.
Qed.
(** ... a value given for the mask makes the call fail, except when arrays are asked for. *)
Theorem C168_mask_value_refuted : forall S T rt m, tensors S -> tensors T -> T <> [] -> rt = RAuto \/ rt = RTensor \/ rt = RDeep ->
  pack_any S T true rt (Some m) = Err TypeError.
Proof.
  intros S T rt m HS HT N Hr. unfold PackModel.pack_any. rewrite (source_blocks_tensor S HS), target_blocks_value.
  set (b := _ ++ _).
  assert (C : cat3 Row (@torch_cat) b = Err TypeError).
  { unfold cat3. destruct T as [|[i d] T]; [congruence|]. assert (Ht : x_kind d = KTensor) by (inversion HT as [|? ? (K & _)]; exact K).
    rewrite torch_cat_ok.
    - cbn [bind]. rewrite (torch_cat_err _ (KNumpy, repeat m (length (x_rows d)))); [reflexivity | | reflexivity].
      unfold b. rewrite map_app. apply in_or_app. right. left. reflexivity.
    - unfold b. rewrite map_app. intros E. apply app_eq_nil in E. destruct E as [_ E]. discriminate.
    - unfold b. rewrite map_app, !map_map. apply Forall_app. split; apply Forall_forall; intros t I; apply in_map_iff in I; destruct I as (p & <- & I).
      + reflexivity.
      + cbn [fst snd]. unfold tensors in HT. rewrite Forall_forall in HT. apply (HT p I). }
  assert (H : match b with (KTensor, _, _, _) :: _ => True | _ => False end).
  { unfold b. destruct S as [|a S]; [|exact I]. destruct T as [|[i d] T]; [congruence|]. inversion HT as [|? ? (K & _)]. cbn [fst snd] in K. cbn [map app fst snd]. rewrite K. exact I. }
  destruct Hr as [->|[->| ->]]; rewrite ?C; try reflexivity. destruct b as [|[[[[|] r] u] v] b']; try contradiction. reflexivity.
Qed.
Theorem C168_mask_value_arrays : forall S T m, tensors S -> tensors T -> S ++ T <> [] ->
  let y := labels S ++ repeat m (length (features T)) in let sd := signed 1 S ++ signed (-1) T in
  pack_any S T true RArray (Some m) = Ok (PkArrays (features (S ++ T)) y sd) /\ pack_any S T true RBunch (Some m) = Ok (PkBunch (features (S ++ T)) y sd).
Proof.
  intros S T m HS HT N y sd. unfold PackModel.pack_any. rewrite (source_blocks_tensor S HS), target_blocks_value. set (b := _ ++ _).
  assert (C : cat3 Row (@np_concatenate) b = Ok (features (S ++ T), y, sd)).
  { assert (Nb : b <> []) by (unfold b; destruct S, T; cbn in *; congruence).
    assert (Nm : forall {A} (f : block Row -> A), map f b <> []) by (intros A f; destruct b; cbn; congruence).
    unfold cat3. rewrite !np_concatenate_ok by auto. cbn [bind]. unfold b, features, y, labels, sd, signed. rewrite !map_app, !map_map, !concat_app, !flat_map_concat_map, map_app, concat_app.
    cbn [fst snd tensor_block].
    assert (Q1 : concat (map (fun p : nat * tdom => repeat m (length (x_rows (snd p)))) T) = repeat m (length (concat (map (fun p => x_rows (snd p)) T)))).
    { clear. induction T as [|p T IH]; [reflexivity|]. cbn [map concat]. rewrite IH, app_length, repeat_app. reflexivity. }
    assert (Q2 : map (fun p : nat * tdom => repeat (- Z.of_nat (fst p))%Z (length (x_rows (snd p)))) T = map (fun p => repeat (-1 * Z.of_nat (fst p))%Z (length (x_rows (snd p)))) T).
    { apply map_ext. intros p. replace (-1 * Z.of_nat (fst p))%Z with (- Z.of_nat (fst p))%Z by lia. reflexivity. }
    rewrite Q1, Q2. unfold features. rewrite !flat_map_concat_map. reflexivity. }
  rewrite C. split; reflexivity.
Qed.

(** Domains of numpy arrays, all labelled with classes or all with numbers: the rows, labels and signed domain labels in order; masking hides every
    target label, with -1 for classes and NaN for numbers. *)
Definition labelled (dt : ydt) (l : list (nat * tdom)) : Prop :=
  Forall (fun p => x_kind (snd p) = KNumpy /\ exists y, y_given (snd p) = Some (KNumpy, dt, y) /\ length y = length (x_rows (snd p))) l.
Definition hidden (dt : ydt) : val := match dt with YInt => VNum (inject_Z (-1)) | _ => VNan end.
Definition array_block (s : Z) (f : nat * tdom -> list val) (p : nat * tdom) : block Row :=
  (KNumpy, x_rows (snd p), (KNumpy, f p), repeat (s * Z.of_nat (fst p))%Z (length (x_rows (snd p)))).
Definition given (p : nat * tdom) : list val := match y_given (snd p) with Some (_, _, y) => y | None => [] end.
Lemma source_blocks_array dt l : labelled dt l -> map (source_block Row) l = map (array_block 1 given) l.
Proof.
  intros F. apply map_ext_in. intros [i d] I. unfold labelled in F. rewrite Forall_forall in F. destruct (F _ I) as (K & y & E & L). cbn [fst snd] in *.
  unfold source_block, array_block, given, t_labels. cbn [fst snd]. rewrite E, K, L, Z.mul_1_l. reflexivity.
Qed.
Lemma target_blocks_array dt l : labelled dt l -> target_blocks Row false (None, None) l = map (array_block (-1) given) l.
Proof.
  induction 1 as [|[i d] l (K & y & E & L) F IH]; [reflexivity|]. cbn [fst snd] in *. cbn [target_blocks map]. unfold t_labels. rewrite E, IH.
  unfold array_block, given. cbn [fst snd]. rewrite E, K, L. replace (-1 * Z.of_nat i)%Z with (- Z.of_nat i)%Z by lia. reflexivity.
Qed.
Lemma target_blocks_hidden dt l : dt = YInt \/ dt = YFloat -> labelled dt l ->
  target_blocks Row true (None, None) l = map (array_block (-1) (fun p => repeat (hidden dt) (length (x_rows (snd p))))) l.
Proof.
  intros Hdt HF. assert (G : forall l, labelled dt l -> target_blocks Row true (Some (hidden dt), Some dt) l
     = map (array_block (-1) (fun p => repeat (hidden dt) (length (x_rows (snd p))))) l).
  { induction 1 as [|[i d] l' (K & y & E & L) F IH]; [reflexivity|]. cbn [fst snd] in *. cbn [target_blocks map]. unfold t_mask, t_labels. rewrite E. cbn [fst snd].
    rewrite IH, K. unfold array_block. cbn [fst snd]. rewrite repeat_length. replace (-1 * Z.of_nat i)%Z with (- Z.of_nat i)%Z by lia.
    destruct Hdt; subst dt; reflexivity. }
  destruct HF as [|[i d] l (K & y & E & L) F]; [reflexivity|]. cbn [fst snd] in *. cbn [target_blocks map]. unfold t_mask, t_labels. rewrite E. cbn [fst snd].
  unfold array_block at 1. cbn [fst snd]. replace (-1 * Z.of_nat i)%Z with (- Z.of_nat i)%Z by lia. rewrite K.
  destruct Hdt; subst dt; cbn [hidden] in *; cbn [snd]; rewrite repeat_length; f_equal; apply (G l F).
Qed.
Lemma array_parts S T g : S ++ T <> [] -> cat3 Row (@np_concatenate) (map (array_block 1 given) S ++ map (array_block (-1) g) T)
  = Ok (features (S ++ T), labels S ++ flat_map g T, signed 1 S ++ signed (-1) T).
Proof.
  intros N. set (b := _ ++ _). assert (Nb : b <> []) by (unfold b; destruct S, T; cbn in *; congruence).
  assert (Nm : forall {A} (f : block Row -> A), map f b <> []) by (intros A f; destruct b; cbn; congruence).
  unfold cat3. rewrite !np_concatenate_ok by auto. cbn [bind]. unfold b, features, labels, signed.
  rewrite !map_map, !map_app, !map_map, !concat_app, !flat_map_concat_map, map_app, concat_app. reflexivity.
Qed.
Theorem C168_arrays : forall S T dt, dt = YInt \/ dt = YFloat -> labelled dt S -> labelled dt T -> S ++ T <> [] ->
  let sd := signed 1 S ++ signed (-1) T in let y := labels S ++ repeat (hidden dt) (length (features T)) in
  (forall rt, rt = RAuto \/ rt = RArray -> pack_any S T false rt None = Ok (PkArrays (features (S ++ T)) (labels (S ++ T)) sd) /\
                                           pack_any S T true rt None = Ok (PkArrays (features (S ++ T)) y sd)) /\
  pack_any S T false RBunch None = Ok (PkBunch (features (S ++ T)) (labels (S ++ T)) sd) /\ pack_any S T true RBunch None = Ok (PkBunch (features (S ++ T)) y sd).
Proof.
  intros S T dt Hdt HS HT N sd y. unfold PackModel.pack_any. rewrite (source_blocks_array dt S HS), (target_blocks_array dt T HT), (target_blocks_hidden dt T Hdt HT).
  rewrite !array_parts by exact N. assert (L : labels (S ++ T) = labels S ++ flat_map given T) by (unfold labels; rewrite !flat_map_concat_map, map_app, concat_app; reflexivity).
  assert (Y : y = labels S ++ flat_map (fun p : nat * tdom => repeat (hidden dt) (length (x_rows (snd p)))) T).
  { unfold y. f_equal. unfold features. clear. induction T as [|p T IH]; [reflexivity|]. cbn [flat_map]. rewrite app_length, repeat_app, IH. reflexivity. }
  rewrite L, Y. split; [|split; reflexivity]. intros rt [-> | ->]; [|split; reflexivity].
  destruct S as [|a S]; [destruct T as [|c T]; [exfalso; apply N; reflexivity|]|]; split; reflexivity.
Qed.

(** REFUTED: tensors cannot be obtained from numpy data, nor a DeepDADataset. *)
Theorem C168_arrays_to_tensors_refuted : forall S T masking mask rt, arrays (S ++ T) -> S ++ T <> [] -> rt = RTensor \/ rt = RDeep ->
  pack_any S T masking rt mask = Err TypeError.
Proof.
  intros S T masking mask rt H N Hr. unfold PackModel.pack_any.
  assert (C : cat3 Row (@torch_cat) (map (source_block Row) S ++ target_blocks Row masking (mask, None) T) = Err TypeError).
  { unfold cat3. assert (E : exists r, In (KNumpy, r) (map (fun t : block Row => fst (fst t)) (map (source_block Row) S ++ target_blocks Row masking (mask, None) T))).
    { unfold arrays in H. apply Forall_app in H. destruct H as [HS HT]. destruct S as [|[i d] S].
      - destruct T as [|[i d] T]; [cbn in N; congruence|]. inversion HT as [|? ? K]. cbn [fst snd] in K. exists (x_rows d). cbn [map app target_blocks].
        destruct (if masking then _ else _) as [y st]. cbn [map fst snd]. rewrite K. left. reflexivity.
      - inversion HS as [|? ? K]. cbn [fst snd] in K. exists (x_rows d). cbn [map app]. left. unfold source_block. cbn [fst snd]. destruct (t_labels Row d) as [[k dt] y]. cbn [fst snd]. rewrite K. reflexivity. }
    destruct E as [r I]. rewrite (torch_cat_err _ _ I eq_refl). reflexivity. }
  destruct Hr as [->| ->]; rewrite C; reflexivity.
Qed.
(** REFUTED: tensors without labels cannot be packed as tensors. *)
Theorem C168_unlabelled_refuted : forall S T masking mask rt i d, In (i, d) S -> y_given d = None -> Forall (fun p => x_kind (snd p) = KTensor) (S ++ T) ->
  rt = RAuto \/ rt = RTensor \/ rt = RDeep -> pack_any S T masking rt mask = Err TypeError.
Proof.
  intros S T masking mask rt i d I E H Hr. unfold PackModel.pack_any. set (b := map (source_block Row) S ++ target_blocks Row masking (mask, None) T).
  assert (TX : forall l st, Forall (fun p : nat * tdom => x_kind (snd p) = KTensor) l -> Forall (fun t : kind * list Row => fst t = KTensor) (map (fun t : block Row => fst (fst t)) (target_blocks Row masking st l))).
  { induction l as [|[j e] l IH]; intros st F; [constructor|]. inversion F as [|? ? K F']. cbn [target_blocks]. destruct (if masking then _ else _) as [y st']. constructor; [exact K | apply IH; exact F']. }
  apply Forall_app in H. destruct H as [HS HT].
  assert (SX : Forall (fun t : kind * list Row => fst t = KTensor) (map (fun t : block Row => fst (fst t)) (map (source_block Row) S))).
  { rewrite map_map. apply Forall_forall. intros t It. apply in_map_iff in It. destruct It as (p & <- & Ip). rewrite Forall_forall in HS. unfold source_block.
    destruct (t_labels Row (snd p)) as [[k dt] y]. apply (HS p Ip). }
  assert (Nb : b <> []) by (unfold b; destruct S; [contradiction | discriminate]).
  assert (C : cat3 Row (@torch_cat) b = Err TypeError).
  { unfold cat3. rewrite torch_cat_ok.
    - cbn [bind]. rewrite (torch_cat_err _ (KNumpy, repeat (VNum (inject_Z (-1))) (length (x_rows d)))); [reflexivity| |reflexivity].
      unfold b. rewrite map_app. apply in_or_app. left. rewrite map_map. apply in_map_iff. exists (i, d). split; [|exact I]. unfold source_block, t_labels. cbn [fst snd]. rewrite E. reflexivity.
    - destruct b; [congruence | discriminate].
    - unfold b. rewrite map_app. apply Forall_app. split; [exact SX | apply TX; exact HT]. }
  destruct Hr as [->|[->| ->]]; rewrite ?C; try reflexivity.
  unfold b in *. destruct S as [|[j e] S]; [contradiction|]. inversion SX as [|? ? K _]. cbn [map app] in *. destruct (source_block Row (j, e)) as [[[k r] y] s] eqn:Q. cbn [fst] in K. subst k. reflexivity.
Qed.
End C168.

Definition exT (rows : list nat) (y : list val) : tdom nat := mkT KTensor rows (Some (KTensor, YInt, y)).
Example C168_ex :
  pack_any (fun _ => true) [(1, exT [10; 11] [VNum 0; VNum 1])] [(2, exT [20] [VNum 1])] true RAuto None =
    Ok (PkTensors [10; 11; 20] [VNum 0; VNum 1; VNum 1] [1; 1; -2]%Z) /\
  pack_any (fun _ => true) [(1, exT [10; 11] [VNum 0; VNum 1])] [(2, exT [20] [VNum 1])] true RAuto (Some (VNum (-1))) = Err TypeError /\
  pack_any (fun _ => true) [(1, mkT KNumpy [10] (Some (KNumpy, YInt, [VNum 1])))] [(2, mkT KNumpy [20] (Some (KNumpy, YInt, [VNum 1])))] true RAuto None =
    Ok (PkArrays [10; 20] [VNum 1; VNum (inject_Z (-1))] [1; -2]%Z) /\
  (exists d, pack_any (fun _ => true) [(1, exT [10; 11] [VNum 0; VNum 1])] [(2, exT [20] [VNum 1])] false RDeep None = Ok (PkDeep d)).
Proof. repeat split. eexists. reflexivity. Qed.
Example C168_ex_floats :
  pack_any (fun _ => true) [(1, mkT KNumpy [10] (Some (KNumpy, YFloat, [VNum (1 # 2)])))] [(2, mkT KNumpy [20; 21] (Some (KNumpy, YFloat, [VNum 1; VNum 2])))] true RArray None =
    Ok (PkArrays [10; 20; 21] [VNum (1 # 2); VNan; VNan] [1; -2; -2]%Z).
Proof. reflexivity. Qed.
