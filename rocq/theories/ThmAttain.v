(** The contracts of the external minimisers can be met: optimal transport plans and the best weights of KMM and MMDTarS exist. *)
From Coq Require Import String List ZArith QArith Bool Arith Lia Reals Lra Psatz Classical_Prop Classical_Pred_Type.
From Coq Require ClassicalDedekindReals.
From Verif Require Import Np NpFacts Labels Spec SpecFacts UtilsModel UtilsSpec UtilsProofs SelectModel RVec RVecFacts FWModel FWSpec FWProofs ThmFW MapModel MapSpec RMat OTModel OTSpec OTProofs ThmJdot ReweightModel ReweightSpec ReweightProofs ThmReweight ThmRew2 TarsModel ThmMmd.
Import ListNotations.
Local Open Scope nat_scope.
Local Open Scope list_scope.

(** ** A continuous function has a smallest value on a closed and bounded set *)
Definition vec := nat -> R.
Definition near (n : nat) (d : R) (x l : vec) : Prop := forall i, i < n -> (Rabs (x i - l i) <= d)%R.
Definition closed (n : nat) (S : vec -> Prop) : Prop := forall l, (forall d, (0 < d)%R -> exists x, S x /\ near n d x l) -> S l.
Definition cont (n : nat) (F : vec -> R) : Prop := forall l e, (0 < e)%R -> exists d, (0 < d)%R /\ forall x, near n d x l -> (Rabs (F x - F l) <= e)%R.

Lemma Rabs_def2_le x d : (Rabs x <= d -> - d <= x <= d)%R.
Proof. intros H. pose proof (Rle_abs x). pose proof (Rle_abs (- x)) as H1. rewrite Rabs_Ropp in H1. lra. Qed.
Definition grill (S : vec -> Prop) (Q : (vec -> Prop) -> Prop) : Prop :=
  (forall A B : vec -> Prop, (forall x, A x -> B x) -> Q A -> Q B) /\
  (forall A B : vec -> Prop, Q (fun x => A x \/ B x) -> Q A \/ Q B) /\
  Q (fun _ => True) /\ (forall A, Q A -> exists x, S x /\ A x).
Lemma pin (S : vec -> Prop) Q (c : vec -> R) B : grill S Q -> (forall x, S x -> (Rabs (c x) <= B)%R) -> {l | forall d, (0 < d)%R -> Q (fun x => (Rabs (c x - l) <= d)%R)}.
Proof.
  intros G HB. set (P := fun t => Q (fun x => (t <= c x)%R)).
  assert (P0 : P (- B)%R).
  { destruct G as (M & U & T & E). destruct (U (fun x => (- B <= c x)%R) (fun x => ~ (- B <= c x)%R)) as [H|H]; auto.
    - apply M with (2 := T). intros x _. apply classic.
    - exfalso. destruct (E _ H) as (x & Sx & Nx). specialize (HB x Sx). apply Rabs_def2_le in HB. lra. }
  assert (PB : is_upper_bound P B).
  { intros t Ht. destruct G as (M & U & T & E). destruct (E _ Ht) as (x & Sx & Nx). specialize (HB x Sx). pose proof (Rle_abs (c x)). lra. }
  destruct (completeness P) as (l & L1 & L2); [exists B; exact PB|exists (- B)%R; exact P0|]. exists l. intros d Hd.
  assert (A1 : exists t, P t /\ (l - d < t)%R).
  { apply NNPP. intros N. assert (l <= l - d)%R; [|lra]. apply L2. intros t Ht. apply Rnot_lt_le. intros Lt. apply N. eauto. }
  destruct A1 as (t & Pt & Lt). destruct G as (M & U & T & E).
  destruct (U (fun x => (Rabs (c x - l) <= d)%R) (fun x => (l + d <= c x)%R)) as [H|H]; auto.
  - apply M with (2 := Pt). intros x Hx. destruct (Rle_lt_dec (l + d) (c x)) as [G|G]; [auto|]. left. apply Rabs_le. lra.
  - exfalso. specialize (L1 (l + d)%R H). lra.
Qed.
Lemma pinned S Q c l : grill S Q -> (forall d, (0 < d)%R -> Q (fun x => (Rabs (c x - l) <= d)%R)) ->
  grill S (fun A => forall d, (0 < d)%R -> Q (fun x => A x /\ (Rabs (c x - l) <= d)%R)).
Proof.
  intros (M & U & T & E) H. split; [|split; [|split]].
  - intros A B AB HA d Hd. apply M with (2 := HA d Hd). intros x (a & b). auto.
  - intros A B HAB. apply NNPP. intros N. apply not_or_and in N as [N1 N2]. apply not_all_ex_not in N1 as (d1 & N1). apply not_all_ex_not in N2 as (d2 & N2).
    apply imply_to_and in N1 as [P1 N1]. apply imply_to_and in N2 as [P2 N2].
    assert (P : (0 < Rmin d1 d2)%R) by now apply Rmin_pos. specialize (HAB _ P).
    destruct (U (fun x => A x /\ (Rabs (c x - l) <= d1)%R) (fun x => B x /\ (Rabs (c x - l) <= d2)%R)) as [H1|H1]; auto.
    apply M with (2 := HAB). intros x ([a|b] & r); [left|right]; (split; [auto|]); (eapply Rle_trans; [exact r|]); [apply Rmin_l|apply Rmin_r].
  - intros d Hd. apply M with (2 := H d Hd). auto.
  - intros A HA. destruct (E _ (HA 1%R Rlt_0_1)) as (x & Sx & Ax & _). eauto.
Qed.
Lemma pin_all (S : vec -> Prop) B n : (forall x, S x -> forall i, i < n -> (Rabs (x i) <= B)%R) -> forall Q, grill S Q -> {l | forall d, (0 < d)%R -> Q (fun x => near n d x l)}.
Proof.
  induction n as [|n IH]; intros HB Q G.
  - exists (fun _ => 0%R). intros d _. destruct G as (M & _ & T & _). apply M with (2 := T). intros x _ i Hi. lia.
  - destruct (pin S Q (fun x => x n) B G) as (ln & Hn); [intros x Sx; apply HB; auto|].
    destruct (IH ltac:(intros; apply HB; auto) _ (pinned S Q (fun x => x n) ln G Hn)) as (l & Hl). exists (fun i => if i =? n then ln else l i). intros d Hd.
    destruct G as (M & _). apply M with (2 := Hl d Hd d Hd). intros x (N & E) i Hi. destruct (Nat.eqb_spec i n) as [->|Ne]; [exact E|apply N; lia].
Qed.
Lemma smallest_value n (S : vec -> Prop) F B : (exists x, S x) -> (forall x, S x -> forall i, i < n -> (Rabs (x i) <= B)%R) -> closed n S -> cont n F ->
  {x | S x /\ forall y, S y -> (F x <= F y)%R}.
Proof.
  intros NE HB HC HF. set (Q := fun A : vec -> Prop => forall y, S y -> exists x, S x /\ A x /\ (F x <= F y)%R).
  assert (G : grill S Q).
  { split; [|split; [|split]].
    - intros A C AC H y Sy. destruct (H y Sy) as (x & ? & ? & ?). eauto.
    - intros A C H. apply NNPP. intros N. apply not_or_and in N as [N1 N2]. apply not_all_ex_not in N1 as (y1 & N1). apply not_all_ex_not in N2 as (y2 & N2).
      apply imply_to_and in N1 as [P1 N1]. apply imply_to_and in N2 as [P2 N2].
      destruct (Rle_lt_dec (F y1) (F y2)) as [L|L].
      + destruct (H y1 P1) as (x & Sx & [a|c] & Le); [apply N1|apply N2]; exists x; repeat split; auto. lra.
      + destruct (H y2 P2) as (x & Sx & [a|c] & Le); [apply N1|apply N2]; exists x; repeat split; auto. lra.
    - intros y Sy. exists y. repeat split; auto. lra.
    - intros A H. destruct NE as (x0 & S0). destruct (H x0 S0) as (x & Sx & Ax & _). eauto. }
  destruct (pin_all S B n HB Q G) as (l & Hl). exists l. split.
  - apply HC. intros d Hd. destruct NE as (x0 & S0). destruct (Hl d Hd x0 S0) as (x & Sx & Nx & _). eauto.
  - intros y Sy. apply Rnot_lt_le. intros Lt. destruct (HF l ((F l - F y) / 2)%R) as (d & Hd & C); [lra|].
    destruct (Hl d Hd y Sy) as (x & Sx & Nx & Le). specialize (C x Nx). apply Rabs_def2_le in C. lra.
Qed.

(** ** Continuous functions and closed sets *)
Lemma cont_const n c : cont n (fun _ => c).
Proof. intros l e He. exists 1%R. split; [lra|]. intros x _. rewrite Rminus_diag_eq, Rabs_R0 by auto. lra. Qed.
Lemma cont_coord n i : i < n -> cont n (fun x => x i).
Proof. intros Hi l e He. exists e. split; [auto|]. intros x N. now apply N. Qed.
Lemma near_le n d d' x l : (d <= d')%R -> near n d x l -> near n d' x l.
Proof. intros H N i Hi. eapply Rle_trans; [apply N; auto|exact H]. Qed.
Lemma cont_plus n F G : cont n F -> cont n G -> cont n (fun x => F x + G x)%R.
Proof.
  intros HF HG l e He. destruct (HF l (e / 2)%R) as (d1 & P1 & C1); [lra|]. destruct (HG l (e / 2)%R) as (d2 & P2 & C2); [lra|].
  exists (Rmin d1 d2). split; [now apply Rmin_pos|]. intros x N. specialize (C1 x (near_le _ _ _ _ _ (Rmin_l _ _) N)). specialize (C2 x (near_le _ _ _ _ _ (Rmin_r _ _) N)).
  replace (F x + G x - (F l + G l))%R with ((F x - F l) + (G x - G l))%R by ring. eapply Rle_trans; [apply Rabs_triang|]. lra.
Qed.
Lemma cont_mult n F G : cont n F -> cont n G -> cont n (fun x => F x * G x)%R.
Proof.
  intros HF HG l e He. set (a := (Rabs (F l) + 1)%R). set (b := (Rabs (G l) + 1)%R). assert (Pa : (1 <= a)%R) by (unfold a; pose proof (Rabs_pos (F l)); lra).
  assert (Pb : (1 <= b)%R) by (unfold b; pose proof (Rabs_pos (G l)); lra).
  destruct (HF l (Rmin 1 (e / (2 * b)))%R) as (d1 & P1 & C1); [apply Rmin_pos; [lra|]; apply Rdiv_lt_0_compat; lra|].
  destruct (HG l (e / (2 * a))%R) as (d2 & P2 & C2); [apply Rdiv_lt_0_compat; lra|].
  exists (Rmin d1 d2). split; [now apply Rmin_pos|]. intros x N. specialize (C1 x (near_le _ _ _ _ _ (Rmin_l _ _) N)). specialize (C2 x (near_le _ _ _ _ _ (Rmin_r _ _) N)).
  replace (F x * G x - F l * G l)%R with (F x * (G x - G l) + G l * (F x - F l))%R by ring. eapply Rle_trans; [apply Rabs_triang|]. rewrite !Rabs_mult.
  assert (FX : (Rabs (F x) <= a)%R).
  { replace (F x) with (F l + (F x - F l))%R by ring. eapply Rle_trans; [apply Rabs_triang|]. unfold a. pose proof (Rmin_l 1 (e / (2 * b))). lra. }
  assert (GX : (Rabs (F x - F l) <= e / (2 * b))%R) by (eapply Rle_trans; [exact C1|apply Rmin_r]).
  assert (T1 : (Rabs (F x) * Rabs (G x - G l) <= a * (e / (2 * a)))%R) by (apply Rmult_le_compat; auto using Rabs_pos).
  assert (T2 : (Rabs (G l) * Rabs (F x - F l) <= b * (e / (2 * b)))%R) by (apply Rmult_le_compat; auto using Rabs_pos; unfold b; lra).
  replace (a * (e / (2 * a)))%R with (e / 2)%R in T1 by (field; lra). replace (b * (e / (2 * b)))%R with (e / 2)%R in T2 by (field; lra). lra.
Qed.
Lemma cont_msum n k (F : nat -> vec -> R) : (forall i, i < k -> cont n (F i)) -> cont n (fun x => msum k (fun i => F i x)).
Proof. induction k as [|k IH]; intros H; [exact (cont_const n 0%R)|]. cbn [msum]. apply (cont_plus n (fun x => msum k (fun i => F i x)) (F k)); [apply IH|]; auto. Qed.
Lemma cont_ext n F G : (forall x, F x = G x) -> cont n F -> cont n G.
Proof. intros E H l e He. destruct (H l e He) as (d & P & C). exists d. split; auto. intros x N. rewrite <- !E. auto. Qed.
Lemma cont_dot n m f g : (forall x, length (f x) = m) -> (forall x, length (g x) = m) -> (forall i, i < m -> cont n (fun x => nth i (f x) 0%R)) ->
  (forall i, i < m -> cont n (fun x => nth i (g x) 0%R)) -> cont n (fun x => dot (f x) (g x)).
Proof.
  intros Lf Lg Cf Cg. apply (cont_ext n (fun x => msum m (fun i => nth i (f x) 0 * nth i (g x) 0)%R)).
  - intros x. rewrite dot_at by now rewrite Lf, Lg. now rewrite Lf.
  - apply (cont_msum n m (fun i x => nth i (f x) 0 * nth i (g x) 0)%R). intros i Hi. apply (cont_mult n (fun x => nth i (f x) 0%R)); auto.
Qed.
Lemma closed_le n F G : cont n F -> cont n G -> closed n (fun x => F x <= G x)%R.
Proof.
  intros HF HG l H. apply Rnot_lt_le. intros Lt. destruct (HF l ((F l - G l) / 3)%R) as (d1 & P1 & C1); [lra|]. destruct (HG l ((F l - G l) / 3)%R) as (d2 & P2 & C2); [lra|].
  destruct (H (Rmin d1 d2)) as (x & Le & N); [now apply Rmin_pos|]. specialize (C1 x (near_le _ _ _ _ _ (Rmin_l _ _) N)). specialize (C2 x (near_le _ _ _ _ _ (Rmin_r _ _) N)).
  apply Rabs_def2_le in C1. apply Rabs_def2_le in C2. lra.
Qed.
Lemma closed_eq n F G : cont n F -> cont n G -> closed n (fun x => F x = G x).
Proof.
  intros HF HG l H. apply Rle_antisym.
  - apply (closed_le n F G HF HG). intros d Hd. destruct (H d Hd) as (x & E & N). exists x. split; [lra|auto].
  - apply (closed_le n G F HG HF). intros d Hd. destruct (H d Hd) as (x & E & N). exists x. split; [lra|auto].
Qed.
Lemma closed_and n S T : closed n S -> closed n T -> closed n (fun x => S x /\ T x).
Proof. intros HS HT l H. split; [apply HS|apply HT]; intros d Hd; destruct (H d Hd) as (x & [? ?] & N); eauto. Qed.
Lemma closed_all {I} n (g : I -> Prop) (S : I -> vec -> Prop) : (forall i, g i -> closed n (S i)) -> closed n (fun x => forall i, g i -> S i x).
Proof. intros H l K i gi. apply (H i gi). intros d Hd. destruct (K d Hd) as (x & A & N). eauto. Qed.

(** ** C178: an exact solver of optimal transport exists *)
Definition plan_of (ns nt : nat) (x : vec) : list (list R) := map (fun i => map (fun j => x (i * nt + j)) (seq 0 nt)) (seq 0 ns).
Definition of_plan (nt : nat) (T : list (list R)) : vec := fun k => at2 T (k / nt) (k mod nt).
Lemma plan_at ns nt x i j : i < ns -> j < nt -> at2 (plan_of ns nt x) i j = x (i * nt + j).
Proof. intros Hi Hj. unfold at2, plan_of. rewrite (OTProofs.nth_map_seq _ _ _ []) by auto. now rewrite OTProofs.nth_map_seq. Qed.
Lemma plan_matrix ns nt x : matrix ns nt (plan_of ns nt x).
Proof. unfold matrix, plan_of. rewrite map_length, seq_length. split; [auto|]. apply Forall_map, Forall_forall. intros. now rewrite map_length, seq_length. Qed.
Lemma of_plan_at nt T i j : j < nt -> of_plan nt T (i * nt + j) = at2 T i j.
Proof.
  intros Hj. unfold of_plan. rewrite Nat.div_add_l by lia. rewrite (Nat.div_small j) by auto. rewrite Nat.add_0_r.
  rewrite Nat.add_comm, Nat.mod_add by lia. now rewrite Nat.mod_small.
Qed.
Definition flows (a b : list R) (x : vec) : Prop :=
  (forall i, i < length a -> forall j, j < length b -> (0 <= x (i * length b + j)%nat)%R) /\
  (forall i, i < length a -> msum (length b) (fun j => x (i * length b + j)) = nth i a 0%R) /\
  (forall j, j < length b -> msum (length a) (fun i => x (i * length b + j)) = nth j b 0%R).
Lemma flows_coupling a b x : flows a b x <-> coupling a b (plan_of (length a) (length b) x).
Proof.
  unfold flows, coupling. split.
  - intros (P & Sr & Sc). split; [apply plan_matrix|]. split; [intros i j Hi Hj; rewrite plan_at by auto; now apply P|]. split.
    + intros i Hi. rewrite <- (Sr i Hi). apply msum_ext. intros j Hj. now apply plan_at.
    + intros j Hj. rewrite <- (Sc j Hj). apply msum_ext. intros i Hi. now apply plan_at.
  - intros (_ & P & Sr & Sc). split; [intros i Hi j Hj; rewrite <- (plan_at (length a)) by auto; auto|]. split.
    + intros i Hi. rewrite <- (Sr i Hi). apply msum_ext. intros j Hj. symmetry. now apply plan_at.
    + intros j Hj. rewrite <- (Sc j Hj). apply msum_ext. intros i Hi. symmetry. now apply plan_at.
Qed.
Lemma flows_of a b T : coupling a b T -> flows a b (of_plan (length b) T).
Proof.
  intros (_ & P & Sr & Sc). split; [intros i Hi j Hj; rewrite of_plan_at by auto; auto|]. split.
  - intros i Hi. rewrite <- (Sr i Hi). apply msum_ext. intros j Hj. now apply of_plan_at.
  - intros j Hj. rewrite <- (Sc j Hj). apply msum_ext. intros i Hi. now apply of_plan_at.
Qed.
Lemma cell a b : forall i j, i < a -> j < b -> i * b + j < a * b.
Proof. intros i j Hi Hj. assert (i * b + b <= a * b) by nia. lia. Qed.
Lemma flows_closed a b : closed (length a * length b) (flows a b).
Proof.
  unfold flows. apply closed_and; [|apply closed_and].
  - apply (closed_all _ (fun i => i < length a) (fun i x => forall j, j < length b -> (0 <= x (i * length b + j)%nat)%R)). intros i Hi.
    apply (closed_all _ (fun j => j < length b) (fun j x => (0 <= x (i * length b + j)%nat)%R)). intros j Hj.
    apply (closed_le _ (fun _ => 0%R) (fun x => x (i * length b + j))); [apply cont_const|apply cont_coord; now apply cell].
  - apply (closed_all _ (fun i => i < length a) (fun i x => msum (length b) (fun j => x (i * length b + j)) = nth i a 0%R)). intros i Hi.
    apply (closed_eq _ (fun x => msum (length b) (fun j => x (i * length b + j)))); [|apply cont_const].
    apply (cont_msum _ _ (fun j x => x (i * length b + j))). intros j Hj. apply cont_coord. now apply cell.
  - apply (closed_all _ (fun j => j < length b) (fun j x => msum (length a) (fun i => x (i * length b + j)) = nth j b 0%R)). intros j Hj.
    apply (closed_eq _ (fun x => msum (length a) (fun i => x (i * length b + j)))); [|apply cont_const].
    apply (cont_msum _ _ (fun i x => x (i * length b + j))). intros i Hi. apply cont_coord. now apply cell.
Qed.
Lemma msum_term k f i : (forall j, j < k -> (0 <= f j)%R) -> i < k -> (f i <= msum k f)%R.
Proof.
  revert i. induction k as [|k IH]; intros i P Hi; [lia|]. cbn [msum]. destruct (Nat.eq_dec i k) as [->|N].
  - assert (0 <= msum k f)%R by (apply msum_nonneg; intros; apply P; auto). lra.
  - specialize (IH i ltac:(intros; apply P; auto) ltac:(lia)). pose proof (P k ltac:(auto)). lra.
Qed.
Lemma flows_bounded a b x : flows a b x -> (forall i, i < length a -> (0 <= nth i a 0)%R) ->
  forall k, k < length a * length b -> (Rabs (x k) <= msum (length a) (fun i => nth i a 0))%R.
Proof.
  intros (P & Sr & _) Pa k Hk. assert (NB : length b <> 0) by (intros E; rewrite E in Hk; lia).
  assert (Ek : k = k / length b * length b + k mod length b) by (pose proof (Nat.div_mod k (length b) NB); lia).
  assert (Hi : k / length b < length a) by (apply Nat.div_lt_upper_bound; lia). pose proof (Nat.mod_upper_bound k _ NB) as Hj.
  rewrite Ek. rewrite Rabs_right by (apply Rle_ge, P; auto).
  eapply Rle_trans; [|apply (msum_term _ (fun i => nth i a 0%R) (k / length b)); auto]. cbv beta. rewrite <- (Sr _ Hi).
  apply (msum_term _ (fun j => x (k / length b * length b + j))); auto.
Qed.
Definition masses (l : list R) : Prop := Forall (fun t => 0 <= t)%R l.
Lemma masses_nth l i : masses l -> i < length l -> (0 <= nth i l 0)%R.
Proof. intros M Hi. unfold masses in M. rewrite Forall_forall in M. apply M, nth_In, Hi. Qed.
Lemma vsum_at l : vsum l = msum (length l) (fun i => nth i l 0%R).
Proof. induction l as [|x l IH] using rev_ind; [reflexivity|]. rewrite vsum_app, app_length, IH. cbn [vsum length]. rewrite Nat.add_1_r. cbn [msum].
  rewrite app_nth2, Nat.sub_diag by lia. cbn. rewrite (msum_ext _ (fun i => nth i (l ++ [x]) 0%R) (fun i => nth i l 0%R)); [lra|]. intros i Hi. now apply app_nth1. Qed.
Lemma flows_exist a b : masses a -> masses b -> vsum a = vsum b -> exists x, flows a b x.
Proof.
  intros Ma Mb E. set (s := vsum a). assert (Es : s = msum (length a) (fun i => nth i a 0%R)) by apply vsum_at. assert (Et : s = msum (length b) (fun j => nth j b 0%R)) by (unfold s; rewrite E; apply vsum_at).
  destruct (Req_dec s 0) as [Z|NZ].
  - assert (Za : forall i, i < length a -> nth i a 0%R = 0%R).
    { intros i Hi. pose proof (masses_nth a i Ma Hi). pose proof (msum_term (length a) (fun i => nth i a 0%R) i ltac:(intros; now apply masses_nth) Hi). cbv beta in *. lra. }
    assert (Zb : forall i, i < length b -> nth i b 0%R = 0%R).
    { intros i Hi. pose proof (masses_nth b i Mb Hi). pose proof (msum_term (length b) (fun i => nth i b 0%R) i ltac:(intros; now apply masses_nth) Hi). cbv beta in *. lra. }
    exists (fun _ => 0%R). split; [intros; lra|]. split; intros; rewrite msum_zero; symmetry; auto.
  - exists (of_plan (length b) (plan_of (length a) (length b) (fun k => nth (k / length b) a 0 * nth (k mod length b) b 0 / s)%R)). apply flows_of.
    assert (Ps : (0 < s)%R). { assert (0 <= s)%R; [|lra]. rewrite Es. apply msum_nonneg. intros; now apply masses_nth. }
    assert (At : forall i j, i < length a -> j < length b -> at2 (plan_of (length a) (length b) (fun k => nth (k / length b) a 0 * nth (k mod length b) b 0 / s)%R) i j = (nth i a 0 * nth j b 0 / s)%R).
    { intros i j Hi Hj. rewrite plan_at by auto. rewrite Nat.div_add_l by lia. rewrite (Nat.div_small j) by auto. rewrite Nat.add_0_r.
      rewrite (Nat.add_comm (i * length b)), Nat.mod_add by lia. now rewrite Nat.mod_small. }
    split; [apply plan_matrix|]. split; [|split].
    + intros i j Hi Hj. rewrite At by auto. apply Rmult_le_pos; [|left; now apply Rinv_0_lt_compat]. apply Rmult_le_pos; now apply masses_nth.
    + intros i Hi. rewrite (msum_ext _ _ (fun j => nth i a 0 / s * nth j b 0)%R) by (intros j Hj; rewrite At by auto; field; lra).
      rewrite (msum_scal (length b) (nth i a 0 / s)%R (fun j => nth j b 0%R)), <- Et. field. lra.
    + intros j Hj. rewrite (msum_ext _ _ (fun i => nth j b 0 / s * nth i a 0)%R) by (intros i Hi; rewrite At by auto; field; lra).
      rewrite (msum_scal (length a) (nth j b 0 / s)%R (fun i => nth i a 0%R)), <- Es. field. lra.
Qed.
Lemma best_plan M a b : masses a -> masses b -> vsum a = vsum b ->
  {T | coupling a b T /\ forall T', coupling a b T' -> (spent (length a) (length b) (at2 M) T <= spent (length a) (length b) (at2 M) T')%R}.
Proof.
  intros Ma Mb E. set (F := fun x : vec => msum (length a) (fun i => msum (length b) (fun j => at2 M i j * x (i * length b + j)%nat)%R)).
  assert (C : cont (length a * length b) F).
  { apply (cont_msum _ _ (fun i x => msum (length b) (fun j => at2 M i j * x (i * length b + j)%nat)%R)). intros i Hi.
    apply (cont_msum _ _ (fun j x => at2 M i j * x (i * length b + j)%nat)%R). intros j Hj.
    apply (cont_mult _ (fun _ => at2 M i j) (fun x => x (i * length b + j))); [apply cont_const|apply cont_coord; now apply cell]. }
  destruct (smallest_value (length a * length b) (flows a b) F (msum (length a) (fun i => nth i a 0%R))) as (x & Fx & O); auto using flows_exist, flows_closed.
  { intros x Fx. apply flows_bounded; auto. intros; now apply masses_nth. }
  exists (plan_of (length a) (length b) x). split; [now apply flows_coupling|]. intros T' CT. specialize (O _ (flows_of _ _ _ CT)).
  replace (spent (length a) (length b) (at2 M) (plan_of (length a) (length b) x)) with (F x).
  - replace (spent (length a) (length b) (at2 M) T') with (F (of_plan (length b) T')); [exact O|].
    apply msum_ext. intros i Hi. apply msum_ext. intros j Hj. now rewrite of_plan_at.
  - apply msum_ext. intros i Hi. apply msum_ext. intros j Hj. now rewrite plan_at.
Qed.
Definition best_solver : list (list R) -> list R -> list R -> res (list (list R) * R) := fun M a b =>
  match ClassicalDedekindReals.sig_not_dec (masses a /\ masses b /\ vsum a = vsum b) with
  | left N => let H := NNPP _ N in let T := proj1_sig (best_plan M a b (proj1 H) (proj1 (proj2 H)) (proj2 (proj2 H))) in Ok (T, spent (length a) (length b) (at2 M) T)
  | right _ => Err ValueError
  end.
(** There is an exact solver of optimal transport that solves every problem whose masses are non-negative and have equal sums. *)
Theorem C178_solver_exists : exists solve, exact_ot solve /\
  forall M a b, masses a -> masses b -> vsum a = vsum b -> exists T v, solve M a b = Ok (T, v).
Proof.
  exists best_solver. split.
  - intros M a b T v _ H. unfold best_solver in H. destruct (ClassicalDedekindReals.sig_not_dec _) as [N|]; [|discriminate].
    destruct (best_plan M a b _ _ _) as (T0 & C & O). cbn in H. injection H as <- <-. auto.
  - intros M a b Ma Mb E. unfold best_solver. destruct (ClassicalDedekindReals.sig_not_dec _) as [N|N]; [eauto|]. exfalso. apply N. auto.
Qed.
(** Masses (1, 3) and (2, 2) with the costs 0 on the diagonal: the value is 1, the mass that has to move. *)
Example C178_solver_ex : exists solve T, exact_ot solve /\ solve [[0; 1]; [1; 0]]%R [1; 3]%R [2; 2]%R = Ok (T, 1%R).
Proof.
  destruct C178_solver_exists as (solve & Ex & Tot). destruct (Tot [[0; 1]; [1; 0]]%R [1; 3]%R [2; 2]%R) as (T & v & E); [repeat constructor; lra|repeat constructor; lra|cbn; lra|].
  exists solve, T. split; [auto|]. rewrite E. do 2 f_equal. assert (Mx : matrix 2 2 [[0; 1]; [1; 0]]%R) by (split; [auto|repeat constructor]).
  destruct (Ex [[0; 1]; [1; 0]]%R [1; 3]%R [2; 2]%R T v Mx E) as (C & Ev & O).
  specialize (O [[1; 0]; [1; 2]]%R). unfold spent, at2 in O. cbn in O. destruct C as (_ & P & Sr & Sc).
  assert (C' : coupling [1; 3]%R [2; 2]%R [[1; 0]; [1; 2]]%R).
  { split; [split; [auto|repeat constructor]|]. split; [|split].
    - intros [|[|i]] [|[|j]] Hi Hj; cbn in *; try lia; cbn; lra.
    - intros [|[|i]] Hi; cbn in *; try lia; cbn; lra.
    - intros [|[|i]] Hi; cbn in *; try lia; cbn; lra. }
  specialize (O C'). pose proof (P 0 1 ltac:(cbn; lia) ltac:(cbn; lia)) as P01. pose proof (Sr 0 ltac:(cbn; lia)) as S0. pose proof (Sc 0 ltac:(cbn; lia)) as S1.
  pose proof (P 0 0 ltac:(cbn; lia) ltac:(cbn; lia)) as P00. pose proof (P 1 0 ltac:(cbn; lia) ltac:(cbn; lia)) as P10.
  unfold spent in Ev. cbn [msum length] in *. unfold at2 in Ev at 1 3 5 7. cbn in *. lra.
Qed.

(** ** C177: minimisers for KMM and MMDTarS exist *)
Definition tolist (n : nat) (x : vec) : list R := map x (seq 0 n).
Lemma tolist_len n x : length (tolist n x) = n. Proof. unfold tolist. now rewrite map_length, seq_length. Qed.
Lemma tolist_nth n x i : i < n -> nth i (tolist n x) 0%R = x i. Proof. intros H. unfold tolist. now apply OTProofs.nth_map_seq. Qed.
Lemma tolist_of l : tolist (length l) (fun i => nth i l 0%R) = l.
Proof. apply nth_ext with (d := 0%R) (d' := 0%R); [apply tolist_len|]. rewrite tolist_len. intros i Hi. now rewrite tolist_nth. Qed.
Lemma cont_nth n i : i < n -> cont n (fun x => nth i (tolist n x) 0%R).
Proof. intros H. apply (cont_ext n (fun x => x i)); [intros; now rewrite tolist_nth|now apply cont_coord]. Qed.
Lemma cont_dot_const n r : length r = n -> cont n (fun x => dot r (tolist n x)).
Proof. intros L. apply (cont_dot n n (fun _ => r)); auto using tolist_len, cont_nth. intros. apply cont_const. Qed.
Lemma cont_vsum n : cont n (fun x => vsum (tolist n x)).
Proof. apply (cont_ext n (fun x => dot (repeat 1%R n) (tolist n x))); [intros; apply ones_dot, tolist_len|apply cont_dot_const, repeat_length]. Qed.
Lemma matvec_nth Q x i : i < length Q -> nth i (matvec Q x) 0%R = dot (nth i Q []) x.
Proof. intros H. unfold matvec. rewrite (nth_indep _ 0%R (dot [] x)) by now rewrite map_length. now rewrite (map_nth (fun r => dot r x)). Qed.
Lemma cont_objective n Q c : square n Q -> length c = n -> cont n (fun x => objective Q (Some c) (tolist n x)).
Proof.
  intros [LQ FQ] Lc. unfold objective. apply (cont_plus n (fun x => 1 / 2 * dot (tolist n x) (matvec Q (tolist n x)))%R).
  - apply (cont_mult n (fun _ => (1 / 2)%R)); [apply cont_const|]. apply (cont_dot n n (tolist n) (fun x => matvec Q (tolist n x))); auto using tolist_len, cont_nth.
    + intros x. unfold matvec. now rewrite map_length.
    + intros i Hi. apply (cont_ext n (fun x => dot (nth i Q []) (tolist n x))); [intros; symmetry; apply matvec_nth; lia|].
      apply cont_dot_const. rewrite Forall_forall in FQ. apply FQ, nth_In. lia.
  - apply (cont_dot n n (tolist n) (fun _ => c)); auto using tolist_len, cont_nth. intros. apply cont_const.
Qed.
Lemma Forall_tolist (P : R -> Prop) n x : Forall P (tolist n x) <-> forall i, i < n -> P (x i).
Proof.
  unfold tolist. rewrite Forall_map, Forall_forall. split; intros H i Hi; apply H; [apply in_seq; lia|]. apply in_seq in Hi. lia.
Qed.
Lemma kmm_best B e n Q c : (exists w, kmm_allowed B e n w) -> square n Q -> length c = n ->
  {w | kmm_allowed B e n w /\ forall w', kmm_allowed B e n w' -> (objective Q (Some c) w <= objective Q (Some c) w')%R}.
Proof.
  intros NE SQ Lc.
  destruct (smallest_value n (fun x => kmm_allowed B e n (tolist n x)) (fun x => objective Q (Some c) (tolist n x)) (Rabs B)) as (x & Ax & O).
  - destruct NE as (w & A). exists (fun i => nth i w 0%R). assert (L : length w = n) by apply A. rewrite <- L at 2. now rewrite tolist_of.
  - intros x (_ & F & _) i Hi. pose proof (proj1 (Forall_tolist _ n x) F i Hi) as [H0 H1]. cbv beta in *. rewrite Rabs_right by lra. eapply Rle_trans; [exact H1|apply Rle_abs].
  - assert (Cl : closed n (fun x => (forall i, i < n -> (0 <= x i)%R /\ (x i <= B)%R) /\ (INR n * (1 - e) <= vsum (tolist n x))%R /\ (vsum (tolist n x) <= INR n * (1 + e))%R)).
    { apply closed_and; [|apply closed_and].
      - apply (closed_all n (fun i => i < n) (fun i x => (0 <= x i)%R /\ (x i <= B)%R)). intros i Hi. apply closed_and.
        + apply (closed_le n (fun _ => 0%R) (fun x => x i)); [apply cont_const|now apply cont_coord].
        + apply (closed_le n (fun x => x i) (fun _ => B)); [now apply cont_coord|apply cont_const].
      - apply (closed_le n (fun _ => _)); [apply cont_const|apply cont_vsum].
      - apply (closed_le n _ (fun _ => _)); [apply cont_vsum|apply cont_const]. }
    assert (Eq : forall x, kmm_allowed B e n (tolist n x) <-> (forall i, i < n -> (0 <= x i)%R /\ (x i <= B)%R) /\ (INR n * (1 - e) <= vsum (tolist n x))%R /\ (vsum (tolist n x) <= INR n * (1 + e))%R).
    { intros x. unfold kmm_allowed. rewrite Forall_tolist, tolist_len. tauto. }
    intros l H. apply Eq, Cl. intros d Hd. destruct (H d Hd) as (x & Ax & N). exists x. split; [now apply Eq|auto].
  - now apply cont_objective.
  - exists (tolist n x). split; [exact Ax|]. intros w' A'. assert (L : length w' = n) by apply A'.
    specialize (O (fun i => nth i w' 0%R)). assert (T : tolist n (fun i => nth i w' 0%R) = w') by (rewrite <- L; apply tolist_of). rewrite T in O. now apply O.
Qed.
Lemma ones_allowed B e n : (1 <= B)%R -> (0 <= e)%R \/ n = 0 -> kmm_allowed B e n (repeat 1%R n).
Proof.
  intros HB He. split; [apply repeat_length|]. split.
  - apply Forall_forall. intros t Ht. apply repeat_spec in Ht. lra.
  - assert (E : vsum (repeat 1%R n) = INR n). { clear. induction n as [|n IH]; [reflexivity|]. rewrite S_INR. cbn [repeat vsum]. lra. }
    rewrite E. destruct He as [He|En]; [pose proof (pos_INR n); nra|]. subst n. cbn. lra.
Qed.
Lemma slack_nonneg eps n : (forall e, eps = Some e -> 0 <= e)%R -> (0 <= kmm_slack eps n)%R \/ n = 0.
Proof.
  intros H. destruct eps as [e|]; [left; cbn; auto|]. destruct n as [|n]; [auto|left]. unfold kmm_slack.
  assert (1 <= sqrt (INR (S n)))%R. { rewrite <- sqrt_1. apply sqrt_le_1_alt. rewrite S_INR. pose proof (pos_INR n). lra. }
  apply Rmult_le_pos; [lra|]. left. apply Rinv_0_lt_compat. lra.
Qed.
(** For every data set there is an external minimiser keeping its contract with which KMM fits, provided the weights may reach 1. *)
Theorem C177_kmm_solver_exists : forall Row (kern : Row -> Row -> R) B eps max_iter (X : list Row) sda,
  (1 <= B)%R -> (forall e, eps = Some e -> 0 <= e)%R -> 0 < length X -> length (eff_domain (length X) sda) = length X ->
  exists slsqp w Xs, minimises slsqp /\ kmm_fit Row slsqp kern B eps max_iter "scipy" X sda = Ok (w, Xs).
Proof.
  intros Row kern B eps mi X sda HB He HX HL. set (sd := eff_domain (length X) sda) in *. set (S := rows_of is_source sd X). set (T := rows_of is_target sd X).
  assert (N : sd <> []) by (intros E; rewrite E in HL; cbn in HL; lia).
  set (c := map Ropp (map (fun r => INR (length (kernel_matrix Row kern S S)) * mean r)%R (kernel_matrix Row kern S T))).
  assert (Lc : length c = length S) by (unfold c, kernel_matrix; now rewrite !map_length).
  assert (LK : length (kernel_matrix Row kern S S) = length S) by apply map_length.
  destruct (kmm_best B (kmm_slack eps (length S)) (length S) (kernel_matrix Row kern S S) c) as (w & A & O); auto using ker_square.
  { exists (repeat 1%R (length S)). apply ones_allowed; auto using slack_nonneg. }
  exists (guarded w), w, S. split; [apply guarded_minimises|]. unfold kmm_fit.
  assert (Sp : rw_split Row X sda = Ok (S, T)).
  { unfold rw_split. rewrite rw_check_total by auto. cbn [bind]. fold sd. rewrite split_ok; [reflexivity|easy|exact N|intros xs [[= <-]|[]]; now symmetry]. }
  rewrite Sp. cbn [bind fst snd].
  assert (E : kmm_optim Row (guarded w) kern B eps mi "scipy" S T = Ok w); [|rewrite E; reflexivity].
  unfold kmm_optim, qp_solve. change (String.eqb "scipy" "scipy") with true. cbv iota. unfold guarded.
  destruct (ClassicalDedekindReals.sig_not_dec _) as [K|K]; [reflexivity|]. exfalso. apply K. clear K.
  rewrite LK. change (kmm_eps eps (length S)) with (kmm_slack eps (length S)). split; [now apply kmm_meets|].
  intros x' a b M Ha Hb. apply kmm_meets in M. fold T in Ha, Hb. rewrite ?LK in Ha. rewrite ?LK in Hb.
  assert (Lx : length x' = length S) by apply M. assert (Lw : length w = length S) by apply A. fold c in Ha, Hb.
  assert (Ec : map Ropp (map (fun r => INR (length S) * mean r)%R (kernel_matrix Row kern S T)) = c) by (unfold c; now rewrite LK). rewrite ?Ec in Ha. rewrite ?Ec in Hb.
  rewrite (qp_func_total (length S)) in Ha; auto using ker_square. rewrite (qp_func_total (length S)) in Hb; auto using ker_square.
  injection Ha as <-. injection Hb as <-. now apply O.
Qed.
(** Sources 1 and 2, target 5: all the weight that is allowed goes to the source next to the target. *)
Example C177_kmm_solver_ex : exists slsqp w, minimises slsqp /\
  kmm_fit R slsqp Rmult 1000 (Some (1/2)%R) 100 "scipy" [1; 2; 5]%R (SDArr [1; 1; -2]%Z) = Ok (w, [1; 2]%R) /\
  kmm_allowed 1000 (1/2) 2 w /\ forall w', kmm_allowed 1000 (1/2) 2 w' ->
    (mmd2 1 (fun (x : R) (_ : nat) => x) w [1; 2]%R [5]%R <= mmd2 1 (fun (x : R) (_ : nat) => x) w' [1; 2]%R [5]%R)%R.
Proof.
  destruct (C177_kmm_solver_exists R Rmult 1000 (Some (1/2)%R) 100 [1; 2; 5]%R (SDArr [1; 1; -2]%Z)) as (slsqp & w & Xs & M & E); [lra|intros e [= <-]; lra|cbn; lia|reflexivity|].
  destruct (C177_kmm_scipy R 1 _ Rmult slsqp 1000 (Some (1/2)%R) 100 _ _ w Xs line_kernel M E) as (EX & O). cbn in EX. subst Xs.
  exists slsqp, w. destruct (O ltac:(discriminate) ltac:(discriminate)) as (A & B). split; [exact M|]. split; [exact E|]. split; [exact A|exact B].
Qed.

Lemma cont_weight ys c : cont (length (unique ys)) (fun x => class_weight (unique ys) (tolist (length (unique ys)) x) c).
Proof.
  apply (cont_ext _ (fun x => dot (map (fun d => if Z.eqb c d then 1%R else 0%R) (unique ys)) (tolist (length (unique ys)) x))).
  - intros x. apply ThmReweight.indicator_row; [apply unique_NoDup|apply tolist_len].
  - apply cont_dot_const. apply map_length.
Qed.
Lemma cont_vsum_map n (f : vec -> Z -> R) : forall l, (forall y, cont n (fun x => f x y)) -> cont n (fun x => vsum (map (f x) l)).
Proof. induction l as [|y l IH]; intros H; [exact (cont_const n 0%R)|]. cbn [map vsum]. apply (cont_plus n (fun x => f x y)); auto. Qed.
Lemma class_weight_at : forall classes alpha a, NoDup classes -> length alpha = length classes -> a < length classes ->
  class_weight classes alpha (nth a classes 0%Z) = nth a alpha 0%R.
Proof.
  intros classes alpha a ND L Ha. rewrite <- ThmReweight.indicator_row by auto. rewrite dot_at by now rewrite map_length.
  rewrite map_length. rewrite <- (msum_delta (length classes) (fun i => nth i alpha 0%R) a Ha). apply msum_ext. intros i Hi.
  rewrite Rmult_comm. f_equal. rewrite (nth_indep _ 0%R ((fun d => if Z.eqb (nth a classes 0%Z) d then 1%R else 0%R) 0%Z)) by now rewrite map_length.
  rewrite (map_nth (fun d => if Z.eqb (nth a classes 0%Z) d then 1%R else 0%R)). destruct (Nat.eqb_spec i a) as [->|Ne]; [now rewrite Z.eqb_refl|].
  destruct (Z.eqb_spec (nth a classes 0%Z) (nth i classes 0%Z)) as [E|]; auto. exfalso. apply Ne. symmetry. eapply NoDup_nth; eauto.
Qed.
Lemma tars_best ys F : cont (length (unique ys)) (fun x => F (tolist (length (unique ys)) x)) ->
  {al | tars_allowed ys al /\ forall al', tars_allowed ys al' -> (F al <= F al')%R}.
Proof.
  intros CF. set (k := length (unique ys)) in *. set (m := INR (length ys)). set (b := (10 / (4 * sqrt m))%R).
  assert (Eq : forall x, tars_allowed ys (tolist k x) <-> (forall y, In y ys -> (0 <= class_weight (unique ys) (tolist k x) y)%R /\ (class_weight (unique ys) (tolist k x) y <= 10)%R) /\
    (m * (1 - b) <= vsum (map (class_weight (unique ys) (tolist k x)) ys))%R /\ (vsum (map (class_weight (unique ys) (tolist k x)) ys) <= m * (1 + b))%R).
  { intros x. unfold tars_allowed. cbv zeta. rewrite Forall_map, Forall_forall, tolist_len. fold k m b. tauto. }
  destruct (smallest_value k (fun x => tars_allowed ys (tolist k x)) (fun x => F (tolist k x)) 10) as (x & Ax & O); auto.
  - exists (fun _ => 1%R). apply Eq.
    assert (One : forall y, In y ys -> class_weight (unique ys) (tolist k (fun _ => 1%R)) y = 1%R).
    { intros y Hy. apply unique_In in Hy. destruct (In_nth _ _ 0%Z Hy) as (a & Ha & <-). rewrite class_weight_at; auto using unique_NoDup, tolist_len. now apply tolist_nth. }
    assert (S1 : vsum (map (class_weight (unique ys) (tolist k (fun _ => 1%R))) ys) = m).
    { unfold m. rewrite (map_ext_in _ (fun _ => 1%R) ys One). clear. induction ys as [|y ys IH]; [reflexivity|]. cbn [map vsum length]. rewrite S_INR. lra. }
    split; [intros y Hy; rewrite One by auto; lra|]. rewrite S1. assert (0 <= m)%R by apply pos_INR.
    assert (Pb : (0 <= m * b)%R).
    { unfold b. destruct (Req_dec m 0) as [Z|NZ]; [rewrite Z; lra|]. assert (0 < sqrt m)%R by (apply sqrt_lt_R0; lra). apply Rmult_le_pos; [auto|]. left. apply Rdiv_lt_0_compat; lra. }
    lra.
  - intros x Ax i Hi. apply Eq in Ax as (H & _). assert (Hy : In (nth i (unique ys) 0%Z) ys) by (apply unique_In, nth_In, Hi).
    specialize (H _ Hy). rewrite class_weight_at, tolist_nth in H; auto using unique_NoDup, tolist_len. rewrite Rabs_right by lra. lra.
  - assert (Cl : closed k (fun x => (forall y, In y ys -> (0 <= class_weight (unique ys) (tolist k x) y)%R /\ (class_weight (unique ys) (tolist k x) y <= 10)%R) /\
      (m * (1 - b) <= vsum (map (class_weight (unique ys) (tolist k x)) ys))%R /\ (vsum (map (class_weight (unique ys) (tolist k x)) ys) <= m * (1 + b))%R)).
    { apply closed_and; [|apply closed_and].
      - apply (closed_all k (fun y => In y ys) (fun y x => (0 <= class_weight (unique ys) (tolist k x) y)%R /\ (class_weight (unique ys) (tolist k x) y <= 10)%R)). intros y _. apply closed_and.
        + apply (closed_le k (fun _ => 0%R)); [apply cont_const|apply cont_weight].
        + apply (closed_le k _ (fun _ => 10%R)); [apply cont_weight|apply cont_const].
      - apply (closed_le k (fun _ => _)); [apply cont_const|]. apply (cont_vsum_map k (fun x => class_weight (unique ys) (tolist k x))). apply cont_weight.
      - apply (closed_le k _ (fun _ => _)); [|apply cont_const]. apply (cont_vsum_map k (fun x => class_weight (unique ys) (tolist k x))). apply cont_weight. }
    intros l H. apply Eq, Cl. intros d Hd. destruct (H d Hd) as (x & Ax & N). exists x. split; [now apply Eq|auto].
  - exists (tolist k x). split; [exact Ax|]. intros al' A'. assert (L : length al' = k) by apply A'.
    specialize (O (fun i => nth i al' 0%R)). assert (T : tolist k (fun i => nth i al' 0%R) = al') by (rewrite <- L; apply tolist_of). rewrite T in O. now apply O.
Qed.
Lemma cont_tars_cost Row row0 lkern kern inv reg (Xs Xt : list Row) ys :
  cont (length (unique ys)) (fun x => tars_cost Row row0 lkern kern inv reg Xs Xt ys (tolist (length (unique ys)) x)).
Proof.
  unfold tars_cost. cbv zeta. set (k := length (unique ys)).
  apply (cont_plus k (fun x => 1 / 2 * msum k (fun a => nth a (tolist k x) 0 * msum k (fun b => tars_P Row row0 lkern kern inv reg Xs ys a b * nth b (tolist k x) 0)))%R).
  - apply (cont_mult k (fun _ => (1 / 2)%R)); [apply cont_const|].
    apply (cont_msum k k (fun a x => nth a (tolist k x) 0 * msum k (fun b => tars_P Row row0 lkern kern inv reg Xs ys a b * nth b (tolist k x) 0))%R). intros a Ha.
    apply (cont_mult k (fun x => nth a (tolist k x) 0%R)); [now apply cont_nth|].
    apply (cont_msum k k (fun b x => tars_P Row row0 lkern kern inv reg Xs ys a b * nth b (tolist k x) 0)%R). intros b Hb.
    apply (cont_mult k (fun _ => tars_P Row row0 lkern kern inv reg Xs ys a b)); [apply cont_const|now apply cont_nth].
  - apply (cont_msum k k (fun a x => nth a (tolist k x) 0 * tars_q Row row0 lkern kern inv reg Xs Xt ys a)%R). intros a Ha.
    apply (cont_mult k (fun x => nth a (tolist k x) 0%R) (fun _ => _)); [now apply cont_nth|apply cont_const].
Qed.
(** The same for MMDTarS, whatever the kernels and the matrix inverse. *)
Theorem C177_mmdtars_solver_exists : forall Row row0 lkern kern inv reg (X : list Row) y sda,
  0 < length X -> length y = length X -> length (eff_domain (length X) sda) = length X ->
  exists solve st,
  (forall Xs Xt ys p a, solve Xs Xt ys p = Ok a -> meets_problem p a /\ forall a', length a' = length a -> meets_problem p a' ->
     (tars_cost Row row0 lkern kern inv reg Xs Xt ys a <= tars_cost Row row0 lkern kern inv reg Xs Xt ys a')%R) /\
  tars_fit Row solve X y sda = Ok st.
Proof.
  intros Row row0 lkern kern inv reg X y sda HX Hy HL. set (sd := eff_domain (length X) sda) in *.
  assert (N : sd <> []) by (intros E; rewrite E in HL; cbn in HL; lia).
  set (Xs0 := rows_of is_source sd X). set (Xt0 := rows_of is_target sd X). set (ys0 := rows_of is_source sd y).
  destruct (tars_best ys0 (tars_cost Row row0 lkern kern inv reg Xs0 Xt0 ys0) (cont_tars_cost _ _ _ _ _ _ _ _ _)) as (al & A & O).
  set (solve := fun Xs Xt ys p => if ClassicalDedekindReals.sig_not_dec (meets_problem p al /\ forall a', length a' = length al -> meets_problem p a' ->
     (tars_cost Row row0 lkern kern inv reg Xs Xt ys al <= tars_cost Row row0 lkern kern inv reg Xs Xt ys a')%R) then Ok al else Err ValueError).
  exists solve, (mkTars Row Xs0 (map (class_weight (unique ys0) al) ys0) al (unique ys0)). split.
  - intros Xs Xt ys p a H. unfold solve in H. destruct (ClassicalDedekindReals.sig_not_dec _) as [K|K]; [|discriminate]. injection H as <-. now apply NNPP.
  - unfold tars_fit. rewrite rw_check_total by auto. cbn [bind]. fold sd.
    rewrite !split_ok; [|easy|exact N|intros xs [[= <-]|[]]; congruence|easy|exact N|intros xs [[= <-]|[]]; congruence]. cbn [bind flat_map split_spec app].
    fold Xs0 Xt0 ys0. destruct A as (La & F & S). pose proof (unique_NoDup ys0) as ND.
    assert (Hr : Forall (fun r => length r = length (unique ys0)) (indicator ys0 (unique ys0))).
    { unfold indicator. apply Forall_map, Forall_forall. intros. apply map_length. }
    assert (Li : length (indicator ys0 (unique ys0)) = length ys0) by (unfold indicator; apply map_length).
    assert (Es : solve Xs0 Xt0 ys0 (tars_problem (indicator ys0 (unique ys0)) (length (unique ys0))) = Ok al).
    { unfold solve. destruct (ClassicalDedekindReals.sig_not_dec _) as [K|K]; [reflexivity|]. exfalso. apply K. clear K. split.
      - apply tars_meets; auto; rewrite indicator_matvec by auto; [exact F|]. rewrite Li. exact S.
      - intros a' La' Ma. rewrite La in La'. apply O. pose proof (tars_feasible _ _ _ Hr La' Ma) as [F' S']. rewrite Li in S'. rewrite indicator_matvec in F' by auto.
        rewrite indicator_matvec in S' by auto. split; [exact La'|]. split; auto. }
    rewrite Es. cbn [bind].
    assert (Em : np_matvec (indicator ys0 (unique ys0)) al = Ok (map (class_weight (unique ys0) al) ys0)).
    { rewrite <- indicator_matvec by auto. clear - Hr La. unfold np_matvec, matvec. induction Hr as [|r M Hr H IH]; [reflexivity|]. cbn [mapM map]. unfold np_dot at 1.
      rewrite Hr, La, Nat.eqb_refl. cbn [bind]. now rewrite IH. }
    rewrite Em. reflexivity.
Qed.
Example C177_mmdtars_solver_ex : exists solve st,
  (forall Xs Xt ys p a, solve Xs Xt ys p = Ok a -> meets_problem p a) /\
  tars_fit R solve [1; 2; 5]%R [0; 1; 7]%Z (SDArr [1; 1; -2]%Z) = Ok st /\ tars_allowed [0; 1]%Z (ts_alpha R st).
Proof.
  destruct (C177_mmdtars_solver_exists R 0%R (fun a b => if Z.eqb a b then 1%R else 0%R) Rmult (fun _ _ => delta) 1%R [1; 2; 5]%R [0; 1; 7]%Z (SDArr [1; 1; -2]%Z))
    as (solve & st & C & E); [cbn; lia|reflexivity|reflexivity|].
  exists solve, st. split; [intros Xs Xt ys p a H; exact (proj1 (C Xs Xt ys p a H))|]. split; [exact E|].
  exact (proj1 (C177_mmdtars R 0%R 1 (fun x _ => x) _ Rmult _ 1%R solve _ _ _ st line_kernel C E ltac:(discriminate) ltac:(discriminate))).
Qed.
