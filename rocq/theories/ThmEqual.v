(** * C224: equal sample weights are no sample weights *)
From Coq Require Import List ZArith Bool Arith Lia Reals Lra.
From Verif Require Import Np NpFacts Labels Spec UtilsModel SelectModel RVec RVecFacts OTModel DeepModel.
Import ListNotations.
Local Open Scope nat_scope.
Local Open Scope list_scope.

(** ** Specification *)
(** One weight for each sample: [cs] for every source, [ct] for every target. *)
Definition equal_weights (cs ct : R) (sd : list Z) : list R := map (fun d => if (0 <=? d)%Z then cs else ct) sd.

Lemma vsum_repeat c n : vsum (repeat c n) = (INR n * c)%R.
Proof. induction n as [|n IH]; [cbn; lra|]. cbn [repeat vsum]. rewrite IH, S_INR. lra. Qed.
Lemma vsum_times c l : vsum (map (Rmult c) l) = (c * vsum l)%R.
Proof. induction l as [|x l IH]; cbn [map vsum]; [lra|]. rewrite IH. lra. Qed.
Lemma map_rep {A B} (f : A -> B) a n : map f (repeat a n) = repeat (f a) n.
Proof. induction n as [|n IH]; [reflexivity|]. cbn. now rewrite IH. Qed.
Lemma marginal_equal c n : (0 < c)%R -> marginal n (Some (repeat c n)) = marginal n None.
Proof.
  intros Hc. unfold marginal. rewrite vsum_repeat, map_rep. destruct n as [|n]; [reflexivity|].
  f_equal. assert (0 < INR (S n))%R by (apply lt_0_INR; lia). field. lra.
Qed.
Lemma select_equal cs ct sd : select (source_mask sd) (equal_weights cs ct sd) = repeat cs (length (select (source_mask sd) sd)) /\
  select (map negb (source_mask sd)) (equal_weights cs ct sd) = repeat ct (length (select (map negb (source_mask sd)) sd)).
Proof.
  induction sd as [|d sd [I1 I2]]; [split; reflexivity|]. unfold equal_weights. cbn [source_mask map]. fold (source_mask sd). fold (equal_weights cs ct sd).
  destruct (0 <=? d)%Z; cbn [select negb length repeat]; rewrite ?I1, ?I2; split; reflexivity.
Qed.
Lemma select_len {A B} : forall (m : list bool) (l : list A) (l' : list B), length l = length l' -> length (select m l) = length (select m l').
Proof.
  induction m as [|b m IH]; intros [|x l] [|x' l'] E; try discriminate E; try reflexivity. injection E as E. destruct b; cbn; now rewrite (IH l l' E).
Qed.
(** What the three splits give when they succeed. *)
Lemma split_data {A} (l : list A) sd p : source_target_split [Some l] sd = Ok p ->
  length l = length sd /\ sd <> [] /\ p = [Some (select (source_mask sd) l); Some (select (map negb (source_mask sd)) l)].
Proof.
  unfold source_target_split, split_gen, raise_if, extract_source_indices. cbn [length Nat.eqb]. destruct (length sd =? 0) eqn:E0; [discriminate|].
  cbn [bind mapM split_one]. unfold np_select, source_mask. rewrite !map_length. destruct (length sd =? length l) eqn:E; [|discriminate]. cbn. intros H. injection H as <-.
  apply Nat.eqb_eq in E. split; [symmetry; exact E|]. split; [destruct sd; [discriminate E0 | discriminate]|]. reflexivity.
Qed.
Lemma split_none {A} sd : sd <> [] -> source_target_split [@None (list A)] sd = Ok [None; None].
Proof. intros H. destruct sd; [now elim H|]. reflexivity. Qed.
Lemma split_equal cs ct sd : sd <> [] -> source_target_split [Some (equal_weights cs ct sd)] sd =
  Ok [Some (repeat cs (length (select (source_mask sd) sd))); Some (repeat ct (length (select (map negb (source_mask sd)) sd)))].
Proof.
  intros H. destruct (source_target_split [Some (equal_weights cs ct sd)] sd) as [p|e] eqn:E.
  - apply split_data in E. destruct E as (_ & _ & ->). destruct (select_equal cs ct sd) as [-> ->]. reflexivity.
  - exfalso. revert E. unfold source_target_split, split_gen, raise_if, extract_source_indices. cbn [length Nat.eqb]. destruct sd; [now elim H|]. cbn [length Nat.eqb bind mapM split_one].
    unfold np_select, equal_weights, source_mask. rewrite !map_length. rewrite Nat.eqb_refl. cbn. discriminate.
Qed.

(** ** Label propagation *)
Theorem C224_propagation : forall Xrow plan (X : list Xrow) cs ct sd, (0 < cs)%R -> (0 < ct)%R ->
  (forall (y : list Z), otlp_discrete plan X y (Some (equal_weights cs ct sd)) sd = otlp_discrete plan X y None sd) /\
  (forall (y : list R), otlp_regression plan X y (Some (equal_weights cs ct sd)) sd = otlp_regression plan X y None sd).
Proof.
  intros Xrow plan X cs ct sd Hs Ht.
  assert (P : forall L (y : list L), otlp_parts X y (Some (equal_weights cs ct sd)) sd = otlp_parts X y None sd).
  { intros L y. unfold otlp_parts. destruct (source_target_split [Some X] sd) as [px|] eqn:Ex; [|reflexivity]. cbn [bind]. destruct (source_target_split [Some y] sd) as [py|] eqn:Ey; [|reflexivity]. cbn [bind].
    apply split_data in Ex, Ey. destruct Ex as (Lx & N & ->), Ey as (Ly & _ & ->). rewrite split_equal, split_none by exact N. cbn [bind].
    rewrite (select_len (source_mask sd) X sd Lx), (select_len (map negb (source_mask sd)) X sd Lx). now rewrite !marginal_equal. }
  split; intros y; unfold otlp_discrete, otlp_regression; now rewrite P.
Qed.
(** ** JDOT: the classifier, and the regressor for a base estimator that itself treats equal weights as none *)
Theorem C224_jdot : forall Xrow cs ct sd (X : list Xrow), (0 < cs)%R -> (0 < ct)%R ->
  (forall Est solve (fit : list Xrow -> list Z -> list R -> res Est) pred metric alpha thr tol n dist y,
     jdot_fit (fun Xs ys Xt ws wt => solve_jdot_classification solve fit pred metric alpha thr tol n (dist Xs Xt) ys Xt ws wt) X y (Some (equal_weights cs ct sd)) sd =
     jdot_fit (fun Xs ys Xt ws wt => solve_jdot_classification solve fit pred metric alpha thr tol n (dist Xs Xt) ys Xt ws wt) X y None sd) /\
  (forall Est solve (fit : list Xrow -> list R -> option (list R) -> res (Est * list R)) alpha tol n dist y,
     (forall Xt yt, fit Xt yt (Some (repeat ct (length Xt))) = fit Xt yt None) ->
     jdot_fit (fun Xs ys Xt ws wt => solve_jdot_regression solve (fit Xt) alpha tol n (dist Xs Xt) ys (length Xt) ws wt) X y (Some (equal_weights cs ct sd)) sd =
     jdot_fit (fun Xs ys Xt ws wt => solve_jdot_regression solve (fit Xt) alpha tol n (dist Xs Xt) ys (length Xt) ws wt) X y None sd).
Proof.
  intros Xrow cs ct sd X Hs Ht. split.
  - intros. unfold jdot_fit. destruct (source_target_split [Some X] sd) as [px|] eqn:Ex; [|reflexivity]. cbn [bind]. destruct (source_target_split [Some y] sd) as [py|] eqn:Ey; [|reflexivity]. cbn [bind].
    apply split_data in Ex, Ey. destruct Ex as (Lx & N & ->), Ey as (Ly & _ & ->). rewrite split_equal, split_none by exact N. cbn [bind].
    unfold solve_jdot_classification. rewrite (select_len (source_mask sd) y sd Ly), (select_len (map negb (source_mask sd)) X sd Lx). now rewrite !marginal_equal.
  - intros Est solve fit alpha tol n dist y Hf. unfold jdot_fit. destruct (source_target_split [Some X] sd) as [px|] eqn:Ex; [|reflexivity]. cbn [bind]. destruct (source_target_split [Some y] sd) as [py|] eqn:Ey; [|reflexivity]. cbn [bind].
    apply split_data in Ex, Ey. destruct Ex as (Lx & N & ->), Ey as (Ly & _ & ->). rewrite split_equal, split_none by exact N. cbn [bind].
    rewrite <- (select_len (map negb (source_mask sd)) X sd Lx). rewrite <- (select_len (source_mask sd) y sd Ly).
    set (Xs := select (source_mask sd) X). set (Xt := select (map negb (source_mask sd)) X). set (ys := select (source_mask sd) y). clearbody Xs Xt ys.
    unfold solve_jdot_regression. rewrite !marginal_equal by assumption.
    set (a := marginal (length ys) None). set (b := marginal (length Xt) None). clearbody a b.
    assert (El : forall k i s pot plab, jdot_loop (reg_step solve (fit Xt) alpha (norm_mean (dist Xs Xt)) ys a b (Some (repeat ct (length Xt)))) tol n k i s pot plab =
      jdot_loop (reg_step solve (fit Xt) alpha (norm_mean (dist Xs Xt)) ys a b None) tol n k i s pot plab).
    { induction k as [|k IH]; intros i s pot plab; [reflexivity|]. cbn [jdot_loop].
      assert (Es : reg_step solve (fit Xt) alpha (norm_mean (dist Xs Xt)) ys a b (Some (repeat ct (length Xt))) i s = reg_step solve (fit Xt) alpha (norm_mean (dist Xs Xt)) ys a b None i s).
      { unfold reg_step. destruct (solve _ _ _) as [[T v]|]; [|reflexivity]. cbn [bind]. now rewrite Hf. }
      rewrite Es. clear Es. destruct (reg_step _ _ _ _ _ _ _ _ i s) as [[[s' l1] l2]|]; [|reflexivity]. cbn [bind]. now rewrite IH. }
    now rewrite El.
Qed.
(** ** Deep models: the mean loss of a batch is multiplied by the common weight of the sources *)
Lemma select_pos cs ct sd : (forall d, In d sd -> d <> 0%Z) ->
  np_select (map (fun s => (0 <? s)%Z) sd) (equal_weights cs ct sd) = Ok (repeat cs (how_many (fun s => (0 <? s)%Z) sd)).
Proof.
  intros H. unfold np_select, equal_weights, how_many. rewrite !map_length, Nat.eqb_refl. f_equal. induction sd as [|d sd IH]; [reflexivity|].
  cbn [map select filter]. rewrite IH by (intros e He; apply H; now right). pose proof (H d (or_introl eq_refl)).
  destruct (0 <? d)%Z eqn:E; destruct (0 <=? d)%Z eqn:E2; try reflexivity; apply Z.ltb_ge in E || apply Z.leb_gt in E2; [apply Z.ltb_lt in E; lia].
Qed.
Lemma map2_rep c l : map2 Rmult (repeat c (length l)) l = map (Rmult c) l.
Proof. induction l as [|x l IH]; [reflexivity|]. cbn. now rewrite IH. Qed.
Theorem C224_deep : forall cs ct l sd, length l = how_many (fun s => (0 <? s)%Z) sd -> (forall d, In d sd -> d <> 0%Z) ->
  get_loss (Vec l) (Some (equal_weights cs ct sd)) sd = match get_loss (Vec l) None sd with Ok (Some r) => Ok (Some (cs * r)%R) | o => o end.
Proof.
  intros cs ct l sd E H. unfold get_loss. rewrite select_pos by exact H. cbn [bind]. rewrite <- E. unfold broadcast_mul. rewrite repeat_length, Nat.eqb_refl. cbn [bind]. rewrite map2_rep.
  destruct l as [|x l]; [reflexivity|]. cbn [tensor_mean]. set (q := x :: l). change (Ok (tensor_mean (Vec (map (Rmult cs) q))) = Ok (Some (cs * mean q)%R)).
  replace (tensor_mean (Vec (map (Rmult cs) q))) with (Some (mean (map (Rmult cs) q))) by reflexivity. do 2 f_equal.
  unfold mean. rewrite map_length. rewrite vsum_times. lra.
Qed.

(** Weights equal to one leave the loss as it is. *)
Theorem C224_deep_ones : forall ct l sd, length l = how_many (fun s => (0 <? s)%Z) sd -> (forall d, In d sd -> d <> 0%Z) ->
  get_loss (Vec l) (Some (equal_weights 1 ct sd)) sd = get_loss (Vec l) None sd.
Proof.
  intros ct l sd E H. rewrite C224_deep by assumption. unfold get_loss. destruct (tensor_mean (Vec l)); [|reflexivity]. do 2 f_equal. lra.
Qed.
(** Any other common weight changes it, which changes the balance with the adaptation loss; and with a criterion that returns one
    number, weights equal to one are an error. *)
Theorem C224_deep_refuted : (exists l sd, get_loss (Vec l) None sd = Ok (Some 4%R) /\ get_loss (Vec l) (Some (equal_weights 2 2 sd)) sd = Ok (Some 8%R)) /\
  forall r ct sd, (forall d, In d sd -> d <> 0%Z) -> 2 <= how_many (fun s => (0 <? s)%Z) sd ->
    get_loss (Scalar r) None sd = Ok (Some r) /\ get_loss (Scalar r) (Some (equal_weights 1 ct sd)) sd = Err ValueError.
Proof.
  split.
  - exists [3; 5]%R, [1; 1; -2]%Z. cbn. split; do 2 f_equal; unfold mean; cbn; lra.
  - intros r ct sd H K. split; [reflexivity|]. unfold get_loss. rewrite select_pos by exact H. cbn [bind]. rewrite repeat_length. destruct (1 <? _) eqn:E; [reflexivity|]. apply Nat.ltb_ge in E. lia.
Qed.
(** Two sources of weight 3 and two targets of weight 5. *)
Example C224_ex : equal_weights 3 5 [1; -2; 1; -2]%Z = [3; 5; 3; 5]%R /\ marginal 2 (Some [5; 5]%R) = [1/2; 1/2]%R /\
  get_loss (Vec [3; 5]%R) (Some (equal_weights 1 7 [1; 1; -2]%Z)) [1; 1; -2]%Z = Ok (Some 4%R) /\
  otlp_discrete (fun (_ _ : list R) a b => Ok [[nth 0 a 0; 0]; [0; nth 1 b 0]]%R) [0; 0; 1; 1]%R [4; -1; 6; -1]%Z (Some (equal_weights 3 5 [1; -2; 1; -2]%Z)) [1; -2; 1; -2]%Z =
  otlp_discrete (fun (_ _ : list R) a b => Ok [[nth 0 a 0; 0]; [0; nth 1 b 0]]%R) [0; 0; 1; 1]%R [4; -1; 6; -1]%Z None [1; -2; 1; -2]%Z.
Proof.
  split; [reflexivity|]. split; [cbn; repeat apply (f_equal2 (@cons R)); try reflexivity; lra|]. split; [cbn; do 2 f_equal; unfold mean; cbn; lra|].
  apply C224_propagation; lra.
Qed.
