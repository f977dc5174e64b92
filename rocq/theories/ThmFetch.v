(** Theorems C147-C150: loaders of real data sets. *)
From Coq Require Import List ZArith Bool Arith Lia Reals Lra Permutation Sorted.
From Verif Require Import Np NpFacts GenModel FetchModel FetchSpec FetchProofs.
Import ListNotations.
Local Open Scope nat_scope.
Local Open Scope list_scope.

(** ** C147: the cache *)

(** Calls that are not interrupted: the first one allowed to download fetches everything, all later ones return the complete data; before it OSError. *)
Theorem C147_completed : forall File Data (load : list File -> Data + fexn) fs program cs, program = office_program fs \/ program = amazon_program fs ->
  (forall c, In c cs -> c_stop c = None) ->
  forall i c, nth_error cs i = Some c ->
    nth_error (snd (calls program load clean cs)) i =
      Some (if existsb c_download (firstn (S i) cs) then match load fs with inl r => Returned r | inr e => Raised e end else Raised OSErr).
Proof.
  intros File Data load fs program cs Hp Hs.
  assert (HR : run program clean = mkDisk true false [] fs) by (destruct Hp as [->| ->]; [apply office_run | apply amazon_run]).
  induction cs as [|c0 cs IH]; intros i c E; [destruct i; discriminate|].
  cbn [calls]. assert (S0 : c_stop c0 = None) by (apply Hs; left; reflexivity).
  cbn [firstn existsb]. destruct (c_download c0) eqn:D0.
  - assert (F : fetch program load clean c0 = (mkDisk true false [] fs, load_outcome load fs)) by (unfold fetch; cbn [clean k_dir]; rewrite D0, S0, HR; reflexivity).
    rewrite F. rewrite calls_fixed by reflexivity. cbn [snd orb]. destruct i as [|i]; [reflexivity|]. cbn [nth_error] in E |- *. rewrite nth_error_map, E. reflexivity.
  - assert (F : fetch program load clean c0 = (clean, Raised OSErr)) by (unfold fetch; cbn [clean k_dir]; rewrite D0; reflexivity).
    rewrite F. destruct i as [|i]; [destruct (calls _ _ _ _); reflexivity|]. cbn [nth_error] in E. specialize (IH (fun c H => Hs c (or_intror H)) i c E).
    destruct (calls program load clean cs) as [d os]. cbn [snd nth_error orb] in *. exact IH.
Qed.
(** Once the directory exists nothing on the disk changes any more, and a call without permission to download changes nothing either. *)
Theorem C147_no_rewrite : forall File Data (load : list File -> Data + fexn) program d c, k_dir d = true \/ c_download c = false -> fst (fetch program load d c) = d.
Proof. intros File Data load program d c [H|H]; unfold fetch; rewrite H; [|destruct (k_dir d)]; reflexivity. Qed.
(** An interruption before the first step is harmless. *)
Theorem C147_early : forall File Data (load : list File -> Data + fexn) program, program <> [] -> fst (fetch program load clean (mkCall true (Some 0))) = clean.
Proof. intros File Data load [|a p] H; [contradiction|]. reflexivity. Qed.
(** After any other interruption no later call ever repairs the cache: all of them see the files extracted before. *)
Theorem C147_interrupted_refuted : forall File Data (load : list File -> Data + fexn) fs k cs, 1 <= k < length (office_program fs) ->
  snd (calls (office_program fs) load (fst (fetch (office_program fs) load clean (mkCall true (Some k)))) cs) =
    map (fun _ => match load (firstn (k - 2) fs) with inl r => Returned r | inr e => Raised e end) cs.
Proof.
  intros File Data load fs k cs H. destruct (office_prefix fs k H) as [A B].
  assert (F : fst (fetch (office_program fs) load clean (mkCall true (Some k))) = run (firstn k (office_program fs)) clean).
  { unfold fetch. cbn [clean k_dir c_download negb c_stop]. destruct (Nat.ltb_spec k (length (office_program fs))); [reflexivity | lia]. }
  rewrite F, calls_fixed by exact A. cbn [snd]. rewrite B. reflexivity.
Qed.
Theorem C147_amazon_interrupted_refuted : forall Row perm fs k dom cs, 1 <= k <= 2 + length fs ->
  let load := load_amazon Row perm dom in
  snd (calls (amazon_program fs) load (fst (fetch (amazon_program fs) load clean (mkCall true (Some k)))) cs) = map (fun _ => Raised FileNotFound) cs.
Proof.
  intros Row perm fs k dom cs H load.
  assert (L : length (amazon_program fs) = 2 + length fs + length fs + 2) by (unfold amazon_program; rewrite !app_length, !map_length; cbn; lia).
  destruct (amazon_prefix fs k ltac:(lia)) as [A B].
  assert (F : fst (fetch (amazon_program fs) load clean (mkCall true (Some k))) = run (firstn k (amazon_program fs)) clean).
  { unfold fetch. cbn [clean k_dir c_download negb c_stop]. destruct (Nat.ltb_spec k (length (amazon_program fs))); [reflexivity | lia]. }
  rewrite F, calls_fixed by exact A. cbn [snd]. rewrite B. replace (k - 2 - length fs) with 0 by lia. reflexivity.
Qed.
(** The same for a call made while another process is downloading. *)
Theorem C147_concurrent_refuted : forall File Data (load : list File -> Data + fexn) fs k c, 1 <= k < length (office_program fs) ->
  snd (fetch (office_program fs) load (run (firstn k (office_program fs)) clean) c) = match load (firstn (k - 2) fs) with inl r => Returned r | inr e => Raised e end.
Proof. intros File Data load fs k c H. destruct (office_prefix fs k H) as [A B]. unfold fetch. rewrite A, B. reflexivity. Qed.
(** Office-31: incomplete data are returned without any error, with other labels. Categories 10 and 20 of domain 1. *)
Definition ex_archive : list (ofile nat) := [mkOF 1 20 1 true 8 200; mkOF 1 10 1 true 8 100; mkOF 1 20 2 true 8 201].
Theorem C147_silent_refuted : exists fs k, let load := load_office31 nat (fun l => l) None 8 [] 1%Z CatNone in
  snd (fetch (office_program fs) load clean (mkCall true None)) = Returned (mkBunch [100; 200; 201] [0; 1; 1] [10; 20]%Z false) /\
  snd (calls (office_program fs) load clean [mkCall true (Some k); mkCall true None]) = [Interrupted; Returned (mkBunch [200] [0] [20]%Z false)].
Proof. exists ex_archive, 3. split; reflexivity. Qed.
Example C147_ex : let load := load_office31 nat (fun l => l) None 8 [] 1%Z CatNone in
  snd (calls (office_program ex_archive) load clean [mkCall false None; mkCall true None; mkCall false None]) =
    [Raised OSErr; Returned (mkBunch [100; 200; 201] [0; 1; 1] [10; 20]%Z false); Returned (mkBunch [100; 200; 201] [0; 1; 1] [10; 20]%Z false)].
Proof. reflexivity. Qed.
(** Interrupted during the first step after the creation of the directory: every later call fails. *)
Example C147_ex_crash : let load := load_office31 nat (fun l => l) None 8 [] 1%Z CatNone in
  snd (calls (office_program ex_archive) load clean [mkCall true (Some 1); mkCall true None; mkCall true None]) = [Interrupted; Raised FileNotFound; Raised FileNotFound].
Proof. reflexivity. Qed.

(** ** C148: Office-31 *)
Section Office31.
  Variable Row : Type.
  Variable by_name : list (ofile Row) -> list (ofile Row).
  Hypothesis sorts : forall l, Permutation (by_name l) l.
  Variable perm : option (nat -> list nat).
  Hypothesis shuf : forall pm, perm = Some pm -> shuffling pm.
  Variable dim : nat.
  Variable caltech : list Z.
  Local Notation load := (load_office31 Row by_name perm dim caltech).

Lemma load_inv dom p fs b : load dom p fs = inl b ->
  u_names b = folders Row fs dom (categories_of caltech p) /\
  u_warned b = match categories_of caltech p with None => false | Some l => existsb (fun c => negb (existsb (Z.eqb c) (u_names b))) l end /\
  exists docs, Permutation docs (documents Row by_name fs dom (u_names b)) /\ read Row dim docs = inl (u_X b, u_y b).
Proof.
  unfold load_office31. destruct (negb _); [discriminate|]. set (names := folders Row fs dom (categories_of caltech p)). set (docs := documents Row by_name fs dom names).
  set (docs' := match perm with None => docs | Some pm => take_rows (pm (length docs)) docs end).
  assert (P : Permutation docs' docs) by (unfold docs'; destruct perm as [pm|] eqn:E; [apply take_rows_perm, shuf; reflexivity | apply Permutation_refl]).
  destruct (read Row dim docs') as [[[|x X] y]|e] eqn:Q; [discriminate | | discriminate]. intros [= <-]. cbn [u_names u_X u_y u_warned].
  split; [reflexivity|]. split; [reflexivity|]. exists docs'. split; [exact P | exact Q].
Qed.
(** The rows returned are those of the files asked for, each once, and the label of a row names the category of its file. *)
Theorem C148_rows : forall dom p fs b, load dom p fs = inl b ->
  length (u_X b) = length (u_y b) /\ Forall (fun k => k < length (u_names b)) (u_y b) /\
  selects (wanted dom (categories_of caltech p)) (fun f => (of_row Row f, of_cat Row f)) fs (map (fun xy => (fst xy, nth (snd xy) (u_names b) 0%Z)) (combine (u_X b) (u_y b))).
Proof.
  intros dom p fs b H. destruct (load_inv dom p fs b H) as (En & _ & docs & P & R). destruct (read_spec Row dim docs _ _ R) as (L & C & _).
  split; [exact L|]. split.
  - assert (Fd : Forall (fun q => snd q < length (u_names b)) docs).
    { eapply Permutation_Forall; [apply Permutation_sym; exact P | apply documents_labels]. }
    assert (Fc : Forall (fun q : Row * nat => snd q < length (u_names b)) (combine (u_X b) (u_y b))).
    { rewrite C. apply Forall_forall. intros q I. apply in_map_iff in I. destruct I as (d & <- & I). apply filter_In in I. rewrite Forall_forall in Fd. exact (Fd d (proj1 I)). }
    clear - L Fc. revert Fc L. generalize (u_X b), (u_y b). intros X. induction X as [|x X IH]; intros [|y ys] F L; try discriminate; [constructor|].
    cbn [combine] in F. inversion F. constructor; [assumption | apply IH; [assumption | now injection L]].
  - rewrite C, map_map. cbn [fst snd].
    set (names := u_names b) in *.
    assert (Q1 : map (fun q => (of_row Row (fst q), nth (snd q) names 0%Z)) (filter (fun q => of_match Row (fst q)) docs)
              = map (fun q => (of_row Row (fst q), snd q)) (filter (fun q => of_match Row (fst q)) (map (fun q => (fst q, nth (snd q) names 0%Z)) docs))).
    { rewrite filter_map', map_map. reflexivity. }
    rewrite Q1.
    assert (ND : NoDup names) by (rewrite En; apply StronglySorted_Zlt_NoDup, names_sorted).
    assert (P2 : Permutation (map (fun q => (fst q, nth (snd q) names 0%Z)) docs) (map (fun f => (f, of_cat Row f)) (filter (fun f => (of_dom Row f =? dom)%Z && existsb (Z.eqb (of_cat Row f)) names) fs))).
    { eapply Permutation_trans; [apply Permutation_map; exact P | apply documents_perm; assumption]. }
    eapply selects_perm; [|apply Permutation_sym, Permutation_map, filter_perm; exact P2].
    rewrite filter_map', map_map. cbn [fst snd].
    assert (FF : forall (A : Type) (a b : A -> bool) l, filter a (filter b l) = filter (fun x => b x && a x) l).
    { intros A a0 b0 l. induction l as [|x l IH]; [reflexivity|]. cbn [filter]. destruct (b0 x); cbn [filter andb]; [destruct (a0 x)|]; rewrite ?IH; reflexivity. }
    rewrite FF. apply (selects_filter _ (wanted dom (categories_of caltech p)) (fun f => (of_row Row f, of_cat Row f))).
    intros f If. unfold wanted. rewrite !andb_true_iff, Z.eqb_eq. split.
    + intros [[Hd Hc] Hm]. split; [exact Hd|]. split; [exact Hm|]. apply existsb_exists in Hc. destruct Hc as (c & Ic & E). apply Z.eqb_eq in E. subst c.
      rewrite En in Ic. apply names_in in Ic. exact (proj2 Ic).
    + intros (Hd & Hm & Hc). split; [split; [exact Hd|] | exact Hm]. apply existsb_exists. exists (of_cat Row f). split; [|apply Z.eqb_refl].
      rewrite En. apply names_in. split; [|exact Hc]. exists f. auto.
Qed.
(** The names are sorted and are the categories present and asked for; the warning tells if one asked for is missing. *)
Theorem C148_names : forall dom p fs b, load dom p fs = inl b -> StronglySorted Z.lt (u_names b) /\
  (forall c, In c (u_names b) <-> (exists f, In f fs /\ of_dom Row f = dom /\ of_cat Row f = c) /\ match categories_of caltech p with None => True | Some l => In c l end) /\
  (u_warned b = true <-> exists l c, categories_of caltech p = Some l /\ In c l /\ ~ In c (u_names b)).
Proof.
  intros dom p fs b H. destruct (load_inv dom p fs b H) as (En & Ew & _). split; [rewrite En; apply names_sorted|]. split.
  - intros c. rewrite En. apply names_in.
  - rewrite Ew. destruct (categories_of caltech p) as [l|].
    + rewrite existsb_exists. split.
      * intros (c & Ic & N). exists l, c. split; [reflexivity|]. split; [exact Ic|]. intros I. apply negb_true_iff in N.
        assert (existsb (Z.eqb c) (u_names b) = true); [|congruence]. apply existsb_exists. exists c. split; [exact I | apply Z.eqb_refl].
      * intros (l' & c & E & Ic & N). injection E as <-. exists c. split; [exact Ic|]. apply negb_true_iff, Bool.not_true_iff_false. intros X.
        apply existsb_exists in X. destruct X as (x & Ix & E). apply Z.eqb_eq in E. subst. contradiction.
    + split; [discriminate | intros (l & c & E & _); discriminate].
Qed.
(** So two domains with the same folders use the same labels. *)
Theorem C148_same_labels : forall d1 d2 p fs b1 b2, load d1 p fs = inl b1 -> load d2 p fs = inl b2 ->
  (forall c, (exists f, In f fs /\ of_dom Row f = d1 /\ of_cat Row f = c) <-> (exists f, In f fs /\ of_dom Row f = d2 /\ of_cat Row f = c)) -> u_names b1 = u_names b2.
Proof.
  intros d1 d2 p fs b1 b2 H1 H2 HF. destruct (C148_names d1 p fs b1 H1) as (S1 & I1 & _). destruct (C148_names d2 p fs b2 H2) as (S2 & I2 & _).
  apply StronglySorted_Zlt_ext; [exact S1 | exact S2|]. intros c. rewrite I1, I2, HF. reflexivity.
Qed.
(** A file with the wrong dimension among those asked for, and a domain without files, raise. *)
Theorem C148_refused : forall dom p fs, (forall f, In f fs -> wanted dom (categories_of caltech p) f -> of_dim Row f <> dim -> exists e, load dom p fs = inr e) /\
  ((forall f, In f fs -> of_dom Row f <> dom) -> load dom p fs = inr FileNotFound).
Proof.
  intros dom p fs. split.
  - intros f If W D. destruct (load dom p fs) as [b|e] eqn:E; [|eauto]. exfalso.
    destruct (load_inv dom p fs b E) as (En & _ & docs & P & R). destruct (read_spec Row dim docs _ _ R) as (_ & _ & FD).
    assert (ND : NoDup (u_names b)) by (rewrite En; apply StronglySorted_Zlt_NoDup, names_sorted).
    destruct W as (Hd & Hm & Hc). assert (I : In (of_cat Row f) (u_names b)) by (rewrite En; apply names_in; split; [exists f; auto | exact Hc]).
    assert (I2 : In (f, of_cat Row f) (map (fun q => (fst q, nth (snd q) (u_names b) 0%Z)) docs)).
    { eapply Permutation_in; [apply Permutation_sym; eapply Permutation_trans; [apply Permutation_map; exact P | apply documents_perm; assumption]|].
      apply in_map_iff. exists f. split; [reflexivity|]. apply filter_In. split; [exact If|]. apply andb_true_iff. split; [apply Z.eqb_eq; exact Hd|].
      apply existsb_exists. exists (of_cat Row f). split; [exact I | apply Z.eqb_refl]. }
    apply in_map_iff in I2. destruct I2 as ([g k] & E2 & I2). injection E2 as -> _. rewrite Forall_forall in FD. exact (D (FD _ I2 Hm)).
  - intros H. unfold load_office31. assert (X : existsb (fun f => (of_dom Row f =? dom)%Z) fs = false).
    { apply Bool.not_true_iff_false. intros X. apply existsb_exists in X. destruct X as (f & If & E). apply Z.eqb_eq in E. exact (H f If E). }
    rewrite X. reflexivity.
Qed.
End Office31.
Example C148_ex : load_office31 nat (fun l => l) (Some (fun n => rev (seq 0 n))) 8 [20; 30]%Z 1%Z CatCaltech ex_archive = inl (mkBunch [201; 200] [0; 0] [20]%Z true).
Proof. reflexivity. Qed.

(** ** C149: Office-Home and Amazon reviews *)

Lemma part_perm {Row Label} d (l l' : list (line Row Label)) : Permutation l l' -> Permutation (part d l) (part d l').
Proof. apply filter_perm. Qed.
Lemma shuffled_perm perm {A} (l : list A) : (forall pm, perm = Some pm -> shuffling pm) -> Permutation (shuffled perm l) l.
Proof. intros H. unfold shuffled. destruct perm as [pm|]; [apply take_rows_perm, H; reflexivity | apply Permutation_refl]. Qed.
(** The data of one domain are those of this domain among all domains: equal without shuffling, up to the order with. *)
Theorem C149_one_of_all : forall Row Label perm doms (ls : list (line Row Label)) d rows, (forall pm, perm = Some pm -> shuffling pm) ->
  In (d, rows) (home_all perm doms ls) -> In d doms /\ Permutation rows (home_one perm ls d) /\ (perm = None -> rows = home_one perm ls d).
Proof.
  intros Row Label perm doms ls d rows H I. unfold home_all in I. apply in_map_iff in I. destruct I as (d' & E & I). injection E as -> <-. split; [exact I|]. split.
  - unfold home_one. apply Permutation_map. eapply Permutation_trans; [apply part_perm, shuffled_perm; exact H | apply Permutation_sym, shuffled_perm; exact H].
  - intros ->. reflexivity.
Qed.
(** Every line of the file whose domain is known is in exactly one of the domains, with its features and its label. *)
Theorem C149_partition : forall Row Label perm doms (ls : list (line Row Label)), (forall pm, perm = Some pm -> shuffling pm) -> NoDup doms ->
  selects (fun l => In (l_dom l) doms) (fun l => (l_dom l, (l_x l, l_y l))) ls (flat_map (fun dr => map (fun r => (fst dr, r)) (snd dr)) (home_all perm doms ls)).
Proof.
  intros Row Label perm doms ls H ND.
  assert (P : Permutation (flat_map (fun dr => map (fun r => (fst dr, r)) (snd dr)) (home_all perm doms ls))
                          (map (fun l => (l_dom l, (l_x l, l_y l))) (filter (fun l => existsb (Z.eqb (l_dom l)) doms) ls))).
  2: { eapply selects_perm; [|apply Permutation_sym; exact P]. apply (selects_filter _ (fun l => In (l_dom l) doms) (fun l => (l_dom l, (l_x l, l_y l)))).
       intros l _. rewrite existsb_exists. split; [intros (x & I & E); apply Z.eqb_eq in E; subst; exact I | intros I; eexists; split; [exact I | apply Z.eqb_refl]]. }
  eapply Permutation_trans; [|apply Permutation_map, filter_perm, (shuffled_perm perm ls H)].
  unfold home_all. generalize (shuffled perm ls). clear H. intros s. induction doms as [|d doms IH].
  - cbn [map flat_map existsb]. clear. induction s; [constructor | exact IHs].
  - inversion ND as [|? ? Nd ND']. subst. cbn [map flat_map fst snd]. eapply Permutation_trans; [apply Permutation_app_head, IH, ND'|]. clear IH ND ND'.
    induction s as [|l s IH]; [constructor|]. cbn [part filter existsb].
    destruct (Z.eqb_spec (l_dom l) d) as [E|E]; cbn [orb].
    + assert (X : existsb (Z.eqb (l_dom l)) doms = false).
      { apply Bool.not_true_iff_false. intros X. apply existsb_exists in X. destruct X as (x & I & Q). apply Z.eqb_eq in Q. apply Nd. congruence. }
      rewrite X. cbn [map app]. rewrite E at 1. constructor. exact IH.
    + destruct (existsb (Z.eqb (l_dom l)) doms); [|exact IH]. cbn [map]. eapply Permutation_trans; [apply Permutation_sym, Permutation_middle|]. constructor. exact IH.
Qed.
(** Amazon: the rows of the file of the domain, each with its label. *)
Theorem C149_amazon : forall Row perm dom fs X y, (forall pm, perm = Some pm -> shuffling pm) -> (forall f, In f fs -> length (af_X f) = length (af_y f)) ->
  load_amazon Row perm dom fs = inl (X, y) -> exists f, In f fs /\ af_dom f = dom /\ length X = length y /\ Permutation (combine X y) (combine (af_X f) (af_y f)) /\
    (perm = None -> X = af_X f /\ y = af_y f).
Proof.
  intros Row perm dom fs X y H HL E. unfold load_amazon in E. destruct (find _ fs) as [f|] eqn:Ff; [|discriminate]. apply find_some in Ff. destruct Ff as [If Ed]. apply Z.eqb_eq in Ed.
  exists f. split; [exact If|]. split; [exact Ed|]. specialize (HL f If).
  destruct perm as [pm|]; injection E as <- <-.
  - assert (C : combine (take_rows (pm (length (af_X f))) (af_X f)) (take_rows (pm (length (af_X f))) (af_y f)) = take_rows (pm (length (af_X f))) (combine (af_X f) (af_y f)) /\
                length (take_rows (pm (length (af_X f))) (af_X f)) = length (take_rows (pm (length (af_X f))) (af_y f))).
    { generalize (pm (length (af_X f))). intros idx. induction idx as [|i idx [IH IL]]; [split; reflexivity|]. unfold take_rows in *. cbn [flat_map].
      assert (N : (exists a b, nth_error (af_X f) i = Some a /\ nth_error (af_y f) i = Some b /\ nth_error (combine (af_X f) (af_y f)) i = Some (a, b)) \/
                  (nth_error (af_X f) i = None /\ nth_error (af_y f) i = None /\ nth_error (combine (af_X f) (af_y f)) i = None)).
      { clear - HL. revert i HL. generalize (af_X f), (af_y f). intros u. induction u as [|a u IH]; intros [|b v] i L; try discriminate; [right; destruct i; auto|].
        destruct i as [|i]; cbn; [left; eauto|]. apply IH. now injection L. }
      destruct N as [(a & b & -> & -> & ->)|(-> & -> & ->)]; cbn [app combine length]; [|split; assumption]. split; [f_equal; exact IH | f_equal; exact IL]. }
    destruct C as [C L]. split; [exact L|]. split; [|discriminate]. rewrite C.
    assert (LC : length (af_X f) = length (combine (af_X f) (af_y f))) by (rewrite combine_length; lia). rewrite LC. apply take_rows_perm, H. reflexivity.
  - split; [exact HL|]. split; [apply Permutation_refl | auto].
Qed.
Example C149_ex : home_all None [1; 2]%Z [mkLine 10 7%Z 2; mkLine 11 8%Z 1; mkLine 12 9%Z 2] = [(1%Z, [(11, 8%Z)]); (2%Z, [(10, 7%Z); (12, 9%Z)])] /\
  load_amazon nat (Some (fun n => rev (seq 0 n))) 3 [mkAF 3 [5; 6] [0; 1]%Z] = inl ([6; 5], [1; 0]%Z).
Proof. split; reflexivity. Qed.

(** ** C150: MNIST and USPS *)
Section Digits.
  Context {Row Gen : Type}.
  Variable draw : nat -> nat -> Gen -> list nat * Gen.
  Hypothesis draw_ok : forall n k g, n <> 0 \/ k = 0 -> length (fst (draw n k g)) = k /\ forall i, In i (fst (draw n k g)) -> i < n.

Lemma digits_spec n_samples n_classes (data : list (Row * Z)) g : (0 <= n_samples <= 1)%R ->
  let kept := filter (fun p => (snd p <? n_classes)%Z) data in
  length (fst (digits draw n_samples n_classes data g)) = Z.to_nat (Int_part (n_samples * INR (length kept))) /\
  (forall p, In p (fst (digits draw n_samples n_classes data g)) -> In p data /\ (snd p < n_classes)%Z).
Proof.
  intros Hn kept. unfold digits. fold kept.
  assert (P : (0 <= n_samples * INR (length kept))%R) by (apply Rmult_le_pos; [lra | apply pos_INR]).
  assert (E : py_int (n_samples * INR (length kept)) = Int_part (n_samples * INR (length kept))) by (unfold py_int; destruct (Rle_dec 0 (n_samples * INR (length kept))); [reflexivity | contradiction]).
  rewrite E. assert (Z0 : length kept <> 0 \/ Z.to_nat (Int_part (n_samples * INR (length kept))) = 0).
  { destruct (length kept) as [|n]; [right | left; lia]. cbn [INR]. rewrite Rmult_0_r. replace (Int_part 0) with 0%Z; [reflexivity|].
    symmetry. exact (Int_part_INR 0). }
  destruct (draw_ok (length kept) (Z.to_nat (Int_part (n_samples * INR (length kept)))) g Z0) as [L B].
  destruct (draw (length kept) _ g) as [idx g']. cbn [fst] in *. split.
  - rewrite <- L. clear L E Z0. unfold take_rows. induction idx as [|i idx IH]; [reflexivity|]. cbn [flat_map]. rewrite app_length.
    rewrite IH by (intros; apply B; right; assumption). specialize (B i (or_introl eq_refl)). destruct (nth_error kept i) eqn:N; [reflexivity|]. apply nth_error_None in N. lia.
  - intros p I. unfold take_rows in I. apply in_flat_map in I. destruct I as (i & _ & I). destruct (nth_error kept i) as [q|] eqn:N; [|destruct I].
    destruct I as [<-|[]]. apply nth_error_In in N. unfold kept in N. apply filter_In in N. destruct N as [N1 N2]. apply Z.ltb_lt in N2. auto.
Qed.
(** Every pair returned is a sample of the data set with its label, of one of the classes asked for; as many as the fraction asked for. *)
Theorem C150_rows : forall n_samples n_classes (mnist usps : list (Row * Z)) g a b, load_mnist_usps draw n_samples n_classes mnist usps g = Ok (a, b) ->
  length a = Z.to_nat (Int_part (n_samples * INR (length (filter (fun p => (snd p <? n_classes)%Z) mnist)))) /\
  length b = Z.to_nat (Int_part (n_samples * INR (length (filter (fun p => (snd p <? n_classes)%Z) usps)))) /\
  (forall p, In p a -> In p mnist /\ (snd p < n_classes)%Z) /\ (forall p, In p b -> In p usps /\ (snd p < n_classes)%Z).
Proof.
  intros n_samples n_classes mnist usps g a b H. unfold load_mnist_usps in H.
  destruct (Rlt_dec n_samples 0) as [|H0]; [discriminate|]. destruct (Rlt_dec 1 n_samples) as [|H1]; [discriminate|].
  pose proof (digits_spec n_samples n_classes mnist g ltac:(lra)) as [A1 A2]. destruct (digits draw n_samples n_classes mnist g) as [a' g1].
  pose proof (digits_spec n_samples n_classes usps g1 ltac:(lra)) as [B1 B2]. destruct (digits draw n_samples n_classes usps g1) as [b' g2]. injection H as <- <-. auto.
Qed.
Theorem C150_range : forall n_samples n_classes (mnist usps : list (Row * Z)) g, (n_samples < 0 \/ 1 < n_samples)%R ->
  load_mnist_usps draw n_samples n_classes mnist usps g = Err ValueError.
Proof.
  intros n_samples n_classes mnist usps g H. unfold load_mnist_usps. destruct (Rlt_dec n_samples 0); [reflexivity|]. destruct (Rlt_dec 1 n_samples); [reflexivity | lra].
Qed.
End Digits.
(** With n_samples = 1 the data set is not returned as it is: samples may be missing while others are repeated. *)
Theorem C150_all_refuted : exists draw : nat -> nat -> unit -> list nat * unit,
  (forall n k g, n <> 0 \/ k = 0 -> length (fst (draw n k g)) = k /\ forall i, In i (fst (draw n k g)) -> i < n) /\
  exists a b, load_mnist_usps draw 1 10 [(100, 3%Z); (101, 4%Z)] [(200, 3%Z)] tt = Ok (a, b) /\ ~ In (101, 4%Z) a /\ ~ NoDup a.
Proof.
  exists (fun n k g => (repeat 0 k, g)). split.
  - intros n k g H. cbn. split; [apply repeat_length|]. intros i I. destruct k as [|k]; [destruct I|]. apply repeat_spec in I. lia.
  - unfold load_mnist_usps. destruct (Rlt_dec 1 0); [lra|]. destruct (Rlt_dec 1 1); [lra|]. unfold digits. cbn [filter snd Z.ltb Z.compare Pos.compare Pos.compare_cont length].
    assert (I2 : py_int (1 * INR 2) = 2%Z).
    { unfold py_int. destruct (Rle_dec 0 (1 * INR 2)) as [_|N]; [|exfalso; apply N; cbn; lra]. rewrite Rmult_1_l. apply (Int_part_INR 2). }
    assert (I1 : py_int (1 * INR 1) = 1%Z).
    { unfold py_int. destruct (Rle_dec 0 (1 * INR 1)) as [_|N]; [|exfalso; apply N; cbn; lra]. rewrite Rmult_1_l. apply (Int_part_INR 1). }
    rewrite I2, I1. eexists. eexists. split; [reflexivity|]. cbn. split.
    + intros [E|[E|[]]]; discriminate.
    + intros N. inversion N as [|? ? N1 _]. apply N1. left. reflexivity.
Qed.
