(** Lemmas about the samplers. *)
From Coq Require Import String List ZArith QArith Bool Arith Lia Reals Lra Permutation Sorted.
From Verif Require Import Np NpFacts Labels RVec RVecFacts Spec SpecFacts UtilsProofs DeepModel DeepSpec DeepProofs.
Import ListNotations.
Local Open Scope nat_scope.
Local Open Scope list_scope.

(** ** Chunks *)
Lemma skipn_plus' {A} a b : forall l : list A, skipn a (skipn b l) = skipn (b + a) l.
Proof. induction b as [|b IH]; intros l; [reflexivity|]. destruct l as [|x l]; cbn; [now rewrite skipn_nil|]. apply IH. Qed.
Lemma chunks_fuel_concat {A} k (Hk : 0 < k) : forall fuel (l : list A), length l <= fuel -> concat (chunks_fuel fuel k l) = l.
Proof.
  induction fuel as [|f IH]; intros [|x l] H; cbn in *; auto; try lia.
  destruct k as [|k]; [lia|]. cbn. rewrite IH by (rewrite skipn_length; lia). f_equal. apply firstn_skipn.
Qed.
Lemma chunks_concat {A} k (l : list A) : 0 < k -> concat (chunks k l) = l.
Proof. intros Hk. now apply chunks_fuel_concat. Qed.
Lemma chunks_fuel_exact {A} k (Hk : 0 < k) q : forall fuel (l : list A), length l <= fuel -> length l = q * k ->
  chunks_fuel fuel k l = map (fun j => firstn k (skipn (j * k) l)) (seq 0 q).
Proof.
  induction q as [|q IH]; intros fuel l HF HL.
  - destruct l; [|discriminate]. destruct fuel; reflexivity.
  - destruct l as [|x l0] eqn:El; [cbn in HL; lia|]. rewrite <- El in *. destruct fuel as [|f]; [subst l; cbn in HF; lia|].
    assert (E : chunks_fuel (S f) k l = firstn k l :: chunks_fuel f k (skipn k l)) by (subst l; reflexivity).
    rewrite E. cbn [seq map]. f_equal. rewrite IH; [|rewrite skipn_length; lia|rewrite skipn_length; lia].
    rewrite <- seq_shift, map_map. apply map_ext. intros j. rewrite skipn_plus'. f_equal.
Qed.
Lemma chunks_exact {A} k q (l : list A) : 0 < k -> length l = q * k -> chunks k l = map (fun j => firstn k (skipn (j * k) l)) (seq 0 q).
Proof. intros Hk HL. now apply chunks_fuel_exact. Qed.
Lemma chunks_nil_iff {A} k (l : list A) : chunks k l = [] <-> l = [].
Proof. destruct l; cbn; split; congruence. Qed.

(** ** Interleaving *)
Lemma interleave_cons {A} (p q : A) ps qs : interleave (p :: ps) (q :: qs) = p :: q :: interleave ps qs.
Proof. reflexivity. Qed.
Lemma interleave_length {A} : forall ps qs : list A, length ps = length qs -> length (interleave ps qs) = 2 * length ps.
Proof. induction ps as [|p ps IH]; intros [|q qs] L; try discriminate; auto. rewrite interleave_cons. cbn [length]. rewrite IH by (now injection L). lia. Qed.
Lemma interleave_firstn {A} n : forall ps qs : list A, length ps = length qs -> firstn (2 * n) (interleave ps qs) = interleave (firstn n ps) (firstn n qs).
Proof.
  induction n as [|n IH]; intros ps qs L; [reflexivity|]. destruct ps as [|p ps], qs as [|q qs]; try discriminate; [reflexivity|].
  replace (2 * S n) with (S (S (2 * n))) by lia. rewrite interleave_cons. cbn [firstn]. rewrite interleave_cons. f_equal. f_equal. apply IH. now injection L.
Qed.
Lemma interleave_skipn {A} n : forall ps qs : list A, length ps = length qs -> skipn (2 * n) (interleave ps qs) = interleave (skipn n ps) (skipn n qs).
Proof.
  induction n as [|n IH]; intros ps qs L; [reflexivity|]. destruct ps as [|p ps], qs as [|q qs]; try discriminate; [reflexivity|].
  replace (2 * S n) with (S (S (2 * n))) by lia. rewrite interleave_cons. cbn [skipn]. apply IH. now injection L.
Qed.
Lemma interleave_perm {A} : forall ps qs : list A, length ps = length qs -> Permutation (interleave ps qs) (ps ++ qs).
Proof.
  induction ps as [|p ps IH]; intros [|q qs] L; try discriminate; [constructor|]. rewrite interleave_cons. cbn [app]. constructor.
  apply Permutation_cons_app. apply IH. now injection L.
Qed.
Lemma how_many_perm {A} (p : A -> bool) l l' : Permutation l l' -> how_many p l = how_many p l'.
Proof. unfold how_many. induction 1; cbn; auto; try (destruct (p x); cbn; lia); try (destruct (p x), (p y); cbn; lia); lia. Qed.

(** ** Draws *)
Definition todo (perms : nat -> list nat) (st : rs_state) (K : nat) : list nat := fst st ++ concat (map perms (seq (snd st) K)).

Lemma draw_spec perms ind st K k rest : (forall j, perms j <> []) -> todo perms st K = k :: rest -> k < length ind ->
  exists st' K', draw perms ind st = Ok (nth k ind 0, st') /\ todo perms st' K' = rest.
Proof.
  intros HP HT Hk. destruct st as [[|a l] j]; unfold todo in HT; cbn [fst snd] in HT; unfold draw; cbn [fst snd].
  - destruct K as [|K]; [discriminate|]. cbn [seq map concat app] in HT. destruct (perms j) as [|a l] eqn:E; [now apply HP in E|].
    cbn [app] in HT. injection HT as -> HT. unfold at_. rewrite (nth_error_nth' _ 0) by auto. cbn [bind]. exists (l, S j), K. split; [reflexivity|exact HT].
  - cbn [app] in HT. injection HT as -> HT. unfold at_. rewrite (nth_error_nth' _ 0) by auto. cbn [bind]. exists (l, j), K. split; [reflexivity|exact HT].
Qed.

Lemma balanced_loop_spec pp pn pos neg : (forall j, pp j <> []) -> (forall j, pn j <> []) ->
  forall n sp sn Kp Kn, n <= length (todo pp sp Kp) -> n <= length (todo pn sn Kn) ->
  Forall (fun k => k < length pos) (todo pp sp Kp) -> Forall (fun k => k < length neg) (todo pn sn Kn) ->
  balanced_loop pp pn n pos neg sp sn =
    Ok (interleave (map (fun k => nth k pos 0) (firstn n (todo pp sp Kp))) (map (fun k => nth k neg 0) (firstn n (todo pn sn Kn)))).
Proof.
  intros HP HN. induction n as [|n IH]; intros sp sn Kp Kn Lp Ln Fp Fn; [reflexivity|].
  destruct (todo pp sp Kp) as [|k rp] eqn:Ep; [cbn in Lp; lia|]. destruct (todo pn sn Kn) as [|q rn] eqn:En; [cbn in Ln; lia|].
  inversion Fp as [|? ? Fk Fp']; subst. inversion Fn as [|? ? Fq Fn']; subst.
  destruct (draw_spec pp pos sp Kp k rp HP Ep Fk) as (sp' & Kp' & Dp & Tp). destruct (draw_spec pn neg sn Kn q rn HN En Fq) as (sn' & Kn' & Dn & Tn).
  cbn [balanced_loop]. rewrite Dp. cbn [bind]. rewrite Dn. cbn [bind fst snd]. rewrite (IH sp' sn' Kp' Kn').
  - rewrite Tp, Tn. reflexivity.
  - rewrite Tp. cbn in Lp. lia.
  - rewrite Tn. cbn in Ln. lia.
  - now rewrite Tp.
  - now rewrite Tn.
Qed.

(** ** Uses *)
Lemma uses_app i a b : uses i (a ++ b) = uses i a + uses i b.
Proof. unfold uses. now rewrite filter_app, app_length. Qed.
Lemma uses_perm i a b : Permutation a b -> uses i a = uses i b.
Proof. apply (how_many_perm (Nat.eqb i)). Qed.
Lemma uses_notin i l : ~ In i l -> uses i l = 0.
Proof.
  intros H. apply (proj2 (how_many_0 (Nat.eqb i) l)). intros x Hx. apply Nat.eqb_neq. intros ->. auto.
Qed.
Lemma uses_NoDup i l : NoDup l -> In i l -> uses i l = 1.
Proof.
  induction 1 as [|x l Hx ND IH]; intros HI; [destruct HI|]. unfold uses. cbn. destruct (Nat.eqb_spec i x) as [->|E].
  - cbn. f_equal. now apply uses_notin.
  - destruct HI as [->|HI]; [congruence|]. now apply IH.
Qed.
Lemma uses_NoDup_le i l : NoDup l -> uses i l <= 1.
Proof. intros ND. destruct (in_dec Nat.eq_dec i l) as [H|H]; [rewrite uses_NoDup|rewrite uses_notin]; auto. Qed.
Lemma uses_map_nth ind k l : NoDup ind -> k < length ind -> Forall (fun q => q < length ind) l -> uses (nth k ind 0) (map (fun q => nth q ind 0) l) = uses k l.
Proof.
  intros ND Hk. induction 1 as [|q l Hq HF IH]; [reflexivity|]. unfold uses in *. cbn [map filter].
  destruct (Nat.eqb_spec (nth k ind 0) (nth q ind 0)) as [E|E], (Nat.eqb_spec k q) as [E'|E']; cbn [length]; rewrite ?IH; auto.
  - exfalso. apply E'. apply (proj1 (NoDup_nth ind 0) ND); auto.
  - subst. congruence.
Qed.

Lemma firstn_NoDup {A} n (l : list A) : NoDup l -> NoDup (firstn n l).
Proof.
  revert l. induction n as [|n IH]; intros [|x l] H; cbn; try constructor.
  - inversion H as [|? ? Hx ND]; subst. intros HI. apply Hx. rewrite <- (firstn_skipn n l). apply in_app_iff. auto.
  - inversion H. auto.
Qed.

Lemma concat_perms_length perms N : (forall j, Permutation (seq 0 N) (perms j)) -> forall K j, length (concat (map perms (seq j K))) = K * N.
Proof.
  intros HP. induction K as [|K IH]; intros j; [reflexivity|]. cbn [seq map concat]. rewrite app_length, IH.
  rewrite <- (Permutation_length (HP j)), seq_length. lia.
Qed.
Lemma concat_perms_In perms N : (forall j, Permutation (seq 0 N) (perms j)) -> forall K j, Forall (fun k => k < N) (concat (map perms (seq j K))).
Proof.
  intros HP K j. apply Forall_forall. intros x Hx. apply in_concat in Hx as (l & Hl & Hx). apply in_map_iff in Hl as (q & <- & _).
  apply (Permutation_in _ (Permutation_sym (HP q))) in Hx. apply in_seq in Hx. lia.
Qed.

Lemma uses_perms perms N x : (forall j, Permutation (seq 0 N) (perms j)) -> x < N ->
  forall K j n, n <= K * N -> n / N <= uses x (firstn n (concat (map perms (seq j K)))) <= S (n / N).
Proof.
  intros HP Hx. assert (NP : forall j, NoDup (perms j)) by (intros j; apply (Permutation_NoDup (HP j)), seq_NoDup).
  assert (LP : forall j, length (perms j) = N) by (intros j; now rewrite <- (Permutation_length (HP j)), seq_length).
  assert (UP : forall j, uses x (perms j) = 1).
  { intros j. apply uses_NoDup; auto. apply (Permutation_in _ (HP j)), in_seq. lia. }
  induction K as [|K IH]; intros j n Hn.
  - assert (n = 0) by lia. subst. cbn. rewrite Nat.div_0_l by lia. lia.
  - cbn [seq map concat]. rewrite firstn_app, uses_app, LP. destruct (Nat.lt_ge_cases n N) as [H|H].
    + replace (n - N) with 0 by lia. rewrite Nat.div_small by auto. cbn [firstn]. change (uses x []) with 0.
      pose proof (uses_NoDup_le x (firstn n (perms j)) (firstn_NoDup _ _ (NP j))). lia.
    + rewrite firstn_all2 by (rewrite LP; auto). rewrite UP. specialize (IH (S j) (n - N) ltac:(lia)).
      assert (E : n / N = S ((n - N) / N)).
      { replace n with ((n - N) + 1 * N) at 1 by lia. rewrite Nat.div_add by lia. lia. }
      rewrite E. lia.
Qed.

Lemma whole_mult n b : 0 < b -> whole n b = b * (n / b).
Proof. intros Hb. unfold whole. pose proof (Nat.div_mod n b ltac:(lia)). lia. Qed.
Lemma whole_le n b : whole n b <= n.
Proof. unfold whole. lia. Qed.

Section Sampler.
  Context {Row : Type}.
  Variable row_ok : Row -> bool.

  Lemma side_positions (d : ds Row) p : consistent row_ok d -> side_indices Row p d = positions p (t_sd _ d).
  Proof. intros C. unfold side_indices. rewrite positions_flatnonzero, <- (items_sd row_ok d C), map_map. reflexivity. Qed.

  Lemma balanced_ok (d : ds Row) bs mode n pp pn : consistent row_ok d -> 
    num_samples mode bs (how_many is_source (t_sd _ d)) (how_many is_target (t_sd _ d)) = Ok n ->
    0 < how_many is_source (t_sd _ d) -> 0 < how_many is_target (t_sd _ d) ->
    (forall k, Permutation (seq 0 (how_many is_source (t_sd _ d))) (pp k)) -> (forall k, Permutation (seq 0 (how_many is_target (t_sd _ d))) (pn k)) ->
    exists ps qs, balanced_epoch Row d bs mode pp pn = Ok (interleave ps qs) /\ length ps = n /\ length qs = n /\
      (forall i, In i ps -> In i (positions is_source (t_sd _ d))) /\ (forall i, In i qs -> In i (positions is_target (t_sd _ d))) /\
      (forall i, In i (positions is_source (t_sd _ d)) -> n / how_many is_source (t_sd _ d) <= uses i ps <= S (n / how_many is_source (t_sd _ d))) /\
      (forall i, In i (positions is_target (t_sd _ d)) -> n / how_many is_target (t_sd _ d) <= uses i qs <= S (n / how_many is_target (t_sd _ d))).
  Proof.
    intros C HN Hs Ht HP HQ. unfold balanced_epoch.
    change (fun s => (0 <=? s)%Z) with is_source. change (fun s => (s <? 0)%Z) with is_target. rewrite !side_positions by auto. cbv zeta.
    set (sd := t_sd Row d) in *. rewrite !positions_length. rewrite HN. cbn [bind].
    destruct (Nat.eqb_spec (how_many is_source sd) 0); [lia|]. destruct (Nat.eqb_spec (how_many is_target sd) 0); [lia|]. cbn [orb].
    set (ns := how_many is_source sd) in *. set (nt := how_many is_target sd) in *.
    assert (NEp : forall j, pp j <> []) by (intros j E; specialize (HP j); rewrite E in HP; apply Permutation_length in HP; rewrite seq_length in HP; cbn in HP; lia).
    assert (NEn : forall j, pn j <> []) by (intros j E; specialize (HQ j); rewrite E in HQ; apply Permutation_length in HQ; rewrite seq_length in HQ; cbn in HQ; lia).
    assert (Tp : todo pp (pp 0, 1) n = concat (map pp (seq 0 (S n)))) by reflexivity.
    assert (Tn : todo pn (pn 0, 1) n = concat (map pn (seq 0 (S n)))) by reflexivity.
    assert (Bp : n <= S n * ns) by nia. assert (Bn : n <= S n * nt) by nia.
    rewrite (balanced_loop_spec pp pn (positions is_source sd) (positions is_target sd) NEp NEn n _ _ n n).
    - rewrite Tp, Tn. eexists. eexists. split; [reflexivity|].
      pose proof (concat_perms_length pp ns HP (S n) 0) as Lp. pose proof (concat_perms_length pn nt HQ (S n) 0) as Ln.
      pose proof (concat_perms_In pp ns HP (S n) 0) as Fp. pose proof (concat_perms_In pn nt HQ (S n) 0) as Fn.
      split; [rewrite map_length, firstn_length; lia|]. split; [rewrite map_length, firstn_length; lia|].
      assert (FF : forall N l, Forall (fun k => k < N) l -> Forall (fun k => k < N) (firstn n l)).
      { intros N l H. apply Forall_forall. intros x Hx. rewrite Forall_forall in H. apply H. rewrite <- (firstn_skipn n l). apply in_app_iff. auto. }
      assert (G : forall (p : Z -> bool) perms, (forall k, Permutation (seq 0 (how_many p sd)) (perms k)) -> n <= S n * how_many p sd ->
        (forall i, In i (map (fun k => nth k (positions p sd) 0) (firstn n (concat (map perms (seq 0 (S n)))))) -> In i (positions p sd)) /\
        (forall i, In i (positions p sd) -> n / how_many p sd <= uses i (map (fun k => nth k (positions p sd) 0) (firstn n (concat (map perms (seq 0 (S n)))))) <= S (n / how_many p sd))).
      { intros p perms HPp B. assert (F := FF _ _ (concat_perms_In perms _ HPp (S n) 0)). split.
        - intros i Hi. apply in_map_iff in Hi as (k & <- & Hk). rewrite Forall_forall in F. apply nth_In. rewrite positions_length. now apply F.
        - intros i Hi. destruct (In_nth _ _ 0 Hi) as (k & Hk & <-). rewrite uses_map_nth; [|apply positions_NoDup|auto|now rewrite positions_length].
          rewrite positions_length in Hk. apply uses_perms; auto. }
      destruct (G is_source pp HP Bp) as [G1 G2]. destruct (G is_target pn HQ Bn) as [G3 G4]. auto.
    - rewrite Tp, (concat_perms_length pp ns HP). exact Bp.
    - rewrite Tn, (concat_perms_length pn nt HQ). exact Bn.
    - rewrite Tp, positions_length. now apply concat_perms_In.
    - rewrite Tn, positions_length. now apply concat_perms_In.
  Qed.

  Lemma only_ok (d : ds Row) bs (src : bool) perm : consistent row_ok d -> 0 < bs ->
    let p := if src then is_source else is_target in
    0 < how_many p (t_sd _ d) -> Permutation (seq 0 (how_many p (t_sd _ d))) perm ->
    exists e, only_epoch Row d bs (Some src) perm = Ok e /\ length e = whole (how_many p (t_sd _ d)) bs /\ NoDup e /\
      (forall i, In i e -> In i (positions p (t_sd _ d))).
  Proof.
    intros C Hb p Hp HP. unfold only_epoch.
    assert (E : side_indices Row (fun s => if src then (0 <=? s)%Z else (s <? 0)%Z) d = positions p (t_sd _ d)).
    { rewrite side_positions by auto. unfold p. now destruct src. }
    rewrite E. cbv zeta. set (sd := t_sd Row d) in *. destruct (Nat.eqb_spec bs 0); [lia|]. rewrite !positions_length. destruct (Nat.eqb_spec (how_many p sd) 0); [lia|].
    set (l := firstn (whole (how_many p sd) bs) perm).
    assert (LP : length perm = how_many p sd) by (now rewrite <- (Permutation_length HP), seq_length).
    assert (F : forall k, In k l -> k < how_many p sd).
    { intros k Hk. assert (H : In k perm) by (rewrite <- (firstn_skipn (whole (how_many p sd) bs) perm); apply in_app_iff; auto).
      apply (Permutation_in _ (Permutation_sym HP)) in H. apply in_seq in H. lia. }
    exists (map (fun k => nth k (positions p sd) 0) l). split.
    - rewrite (mapM_ext _ (fun k => Ok (nth k (positions p sd) 0))); [apply mapM_pure|].
      intros k Hk. unfold at_. rewrite (nth_error_nth' _ 0); [reflexivity|]. rewrite positions_length. auto.
    - split; [rewrite map_length; unfold l; rewrite firstn_length; pose proof (whole_le (how_many p sd) bs); lia|]. split.
      + assert (ND : NoDup l) by (apply firstn_NoDup; apply (Permutation_NoDup HP), seq_NoDup). clear - ND F.
        induction ND as [|k l Hk ND IH]; cbn; constructor.
        * intros H. apply in_map_iff in H as (q & Eq & Hq). apply Hk.
          assert (q = k); [|congruence]. apply (proj1 (NoDup_nth (positions p sd) 0) (positions_NoDup _ _)); rewrite ?positions_length; auto; apply F; cbn; auto.
        * apply IH. intros. apply F. cbn. auto.
      + intros i Hi. apply in_map_iff in Hi as (k & <- & Hk). apply nth_In. rewrite positions_length. auto.
  Qed.
End Sampler.
