(** Theorems C173: scoring leaves the estimators as they are, and a scorer carries nothing over from one call to the next. *)
From Coq Require Import String List ZArith QArith Bool Arith Lia Reals Lra Permutation.
From Verif Require Import Np NpFacts Labels UtilsModel SelectModel RVec ReweightModel MetricsModel ScorerModel.
Import ListNotations.
Local Open Scope nat_scope.
Local Open Scope list_scope.

Section Kept.
  Context {Row St Fitted F : Type}.
  Variable predict : St -> list Row -> list Z -> res (list val).
  Variable score : St -> list Row -> list val -> list Z -> list R -> res R.
  Variable infer : St -> list Row -> res (list (list R)).
  Variable features : St -> list Row -> res (list F).
  Variable proba : St -> list Row -> list Z -> res (list (list R)).
  Variable fit : St -> list Row * list val * list Z -> res St.
  Variable copyable : St -> bool.
  Variable unfit : St -> St.
  Variable unfitted : Fitted.
  Variable fit_density : list Row -> res Fitted.
  Variable score_samples : Fitted -> list Row -> res (list R).
  Variable fit_classifier : list F -> list Z -> res Fitted.
  Variable classifier_proba : Fitted -> list F -> res (list (R * R)).
  Variable fexp : R -> R.
  Variable loss : val -> list R -> R.
  Variable source_scorer : list val -> list val -> res R.

  Let imp := importance_kept score unfitted fit_density score_samples fexp.
  Let mano := @mano_kept Row St Fitted infer.
  Let dev := dev_kept features proba unfitted fit_classifier classifier_proba loss.
  Let circ := circular_heap predict fit copyable unfit source_scorer.
  Let one := one predict score infer features proba fit copyable unfit unfitted fit_density score_samples fit_classifier classifier_proba
                 fexp loss source_scorer.
  Let many := many predict score infer features proba fit copyable unfit unfitted fit_density score_samples fit_classifier classifier_proba
                 fexp loss source_scorer.

  (** The value of a scoring as a function of what the estimator holds and of the data: the scores of MetricsModel. *)
  Definition value (s : St) (q : @request Row) : res R :=
    match q_task q with
    | TImportance => importance_score Row (q_sign q) (fun A => f <- fit_density A ;; Ok (score_samples f)) fexp (score s) (q_X q) (q_y q) (q_sd q)
    | TMano p t => tp <- target_part Row (q_X q) (q_y q) (q_sd q) ;; ty <- find_y_type1 (q_y q) ;;
                   match ty with CONTINUOUS => Err ValueError
                   | DISCRETE => l <- infer s (snd (fst tp)) ;; Ok (q_sign q * mano_aggregate p (mano_proba t l))%R end
    | TDev tr va => dev_score Row (q_sign q) tr va (features s) (fun A B => c <- fit_classifier A B ;; Ok (classifier_proba c)) (proba s) loss
                      (q_X q) (q_y q) (q_y q) (q_sd q)
    | TCircular dt => circular_score Row (q_sign q) (predict s) (fun data => b <- fit (if copyable s then s else unfit s) data ;; Ok (predict b)) source_scorer dt
                        (q_X q) (q_y q) (q_sd q)
    end.

  Lemma imp_value k s sign X y sda : snd (imp k s sign X y sda)
    = importance_score Row sign (fun A => f <- fit_density A ;; Ok (score_samples f)) fexp (score s) X y sda.
  Proof.
    unfold imp, importance_kept, importance_score.
    destruct (check_X_y_domain (length X) y sda true all_flags) as [sd|]; cbn [bind]; auto.
    destruct (extract_source_indices sd) as [m|]; cbn [bind]; auto.
    destruct (np_select m X) as [Xs|]; cbn [bind]; auto. destruct (np_select (map negb m) X) as [Xt|]; cbn [bind]; auto.
    destruct (np_select m y) as [ys|]; cbn [bind]; auto.
    destruct (fit_density Xs) as [fs|]; cbn [bind]; auto. destruct (fit_density Xt) as [ft|]; cbn [bind]; auto.
  Qed.

  Lemma dev_value_eq k s sign tr va X y sda : snd (dev k s sign tr va X y sda)
    = dev_score Row sign tr va (features s) (fun A B => c <- fit_classifier A B ;; Ok (classifier_proba c)) (proba s) loss X y y sda.
  Proof.
    unfold dev, dev_kept, dev_score.
    destruct (check_X_y_domain (length X) y sda true all_flags) as [sd|]; cbn [bind]; auto.
    destruct (extract_source_indices sd) as [m|]; cbn [bind]; auto.
    destruct (np_select m X) as [Xs|]; cbn [bind]; auto. destruct (np_select m y) as [ys|]; cbn [bind]; auto.
    destruct (np_select m sd) as [sds|]; cbn [bind]; auto.
    destruct (np_take tr Xs) as [Xtr|]; cbn [bind]; auto. destruct (np_take va Xs) as [Xva|]; cbn [bind]; auto.
    destruct (np_take va ys) as [yv|]; cbn [bind]; auto. destruct (np_take va sds) as [sv|]; cbn [bind]; auto.
    destruct (np_select (map negb m) X) as [Xt|]; cbn [bind]; auto.
    destruct (features s Xtr) as [f1|]; cbn [bind]; auto. destruct (features s Xva) as [f2|]; cbn [bind]; auto.
    destruct (features s Xt) as [f3|]; cbn [bind]; auto.
    destruct (fit_classifier _ _) as [c|]; cbn [bind]; auto.
  Qed.

  Lemma mano_value k s sign p t X y sda : snd (mano k s sign p t X y sda)
    = (tp <- target_part Row X y sda ;; ty <- find_y_type1 y ;;
       match ty with CONTINUOUS => Err ValueError | DISCRETE => l <- infer s (snd (fst tp)) ;; Ok (sign * mano_aggregate p (mano_proba t l))%R end).
  Proof.
    unfold mano, mano_kept. destruct (target_part Row X y sda) as [tp|]; cbn [bind]; auto. destruct (find_y_type1 y) as [[]|]; cbn [bind]; auto.
    destruct (infer s (snd (fst tp))) as [l|]; cbn [bind]; auto. unfold mano_proba. destruct (mano_criterion l) as [c l'].
    destruct (Rltb t c); reflexivity.
  Qed.

  Lemma circ_value h i s sign dt X y sda : nth_error h i = Some s -> snd (circ h i sign dt X y sda)
    = circular_score Row sign (predict s) (fun data => b <- fit (backward_of copyable unfit s) data ;; Ok (predict b)) source_scorer dt X y sda.
  Proof.
    intros E. unfold circ, circular_heap, at_ at 1. rewrite E.
    destruct (target_part Row X y sda) as [[[m Xt] sdt]|ex] eqn:T; cbn [bind].
    2:{ unfold circular_score. now rewrite T. }
    destruct (check_y_masking y) as [ty|ex] eqn:M; cbn [bind]; auto.
    unfold circular_score, circular_backward. rewrite T. cbn [bind].
    unfold target_part in T. apply bind_ok in T as [sd [C _]]. rewrite C. cbn [bind]. now rewrite M.
  Qed.

  Lemma put_same (h : @heap St) b b' : put (h ++ [b]) (length h) b' = h ++ [b'].
  Proof. unfold put. now rewrite firstn_app, Nat.sub_diag, firstn_all, app_nil_r, skipn_all2 by (rewrite app_length; cbn; lia). Qed.

  (** At most one object is added. *)
  Lemma circ_heap h i sign dt X y sda : exists l, fst (circ h i sign dt X y sda) = h ++ l.
  Proof.
    unfold circ, circular_heap. destruct (at_ h i) as [s|]; [|exists []; now rewrite app_nil_r].
    destruct (_ <- _ ;; _) as [u|ex]; [|exists []; now rewrite app_nil_r]. cbn [fst].
    set (b0 := backward_of copyable unfit s).
    destruct (at_ (h ++ [b0]) i); [|eexists; reflexivity]. destruct (at_ (h ++ [b0]) (length h)); [|eexists; reflexivity].
    destruct (circular_backward _ _ _ _ _ _) as [[d|]|]; try (eexists; reflexivity). destruct (fit _ _); [|eexists; reflexivity].
    rewrite put_same. eexists. reflexivity.
  Qed.

  Lemma one_heap w q : exists l, w_heap (fst (one w q)) = w_heap w ++ l.
  Proof.
    assert (Z : exists l, w_heap w = w_heap w ++ l) by (exists []; now rewrite app_nil_r).
    unfold one, ScorerModel.one. destruct (at_ (w_heap w) (q_est q)) as [s|] eqn:E; [|exact Z]. destruct (q_task q) as [|p t|tr va|dt].
    - destruct (importance_kept _ _ _ _ _ _ _ _ _ _ _) as [k r]. exact Z.
    - destruct (mano_kept _ _ _ _ _ _ _ _ _) as [k r]. exact Z.
    - destruct (dev_kept _ _ _ _ _ _ _ _ _ _ _ _ _ _) as [k r]. exact Z.
    - pose proof (circ_heap (w_heap w) (q_est q) (q_sign q) dt (q_X q) (q_y q) (q_sd q)) as H. unfold circ in H.
      destruct (circular_heap _ _ _ _ _ _ _ _ _ _ _ _) as [h r]. exact H.
  Qed.

  Lemma one_value w q s : nth_error (w_heap w) (q_est q) = Some s -> snd (one w q) = value s q.
  Proof.
    intros E. unfold one, ScorerModel.one, value, at_. rewrite E. destruct (q_task q) as [|p t|tr va|dt].
    - rewrite <- (imp_value (w_kept w (q_scorer q))). unfold imp. destruct (importance_kept _ _ _ _ _ _ _ _ _ _ _) as [k r]. reflexivity.
    - rewrite <- (mano_value (w_kept w (q_scorer q))). unfold mano. destruct (mano_kept _ _ _ _ _ _ _ _ _) as [k r]. reflexivity.
    - rewrite <- (dev_value_eq (w_kept w (q_scorer q))). unfold dev. destruct (dev_kept _ _ _ _ _ _ _ _ _ _ _ _ _ _) as [k r]. reflexivity.
    - rewrite <- (circ_value (w_heap w) (q_est q)) by auto. unfold circ. destruct (circular_heap _ _ _ _ _ _ _ _ _ _ _ _) as [h r]. reflexivity.
  Qed.

  Lemma many_all : forall qs w, Forall (fun q => q_est q < length (w_heap w)) qs ->
    (exists l, w_heap (fst (many w qs)) = w_heap w ++ l) /\
    Forall2 (fun q r => exists s, nth_error (w_heap w) (q_est q) = Some s /\ r = value s q) qs (snd (many w qs)).
  Proof.
    induction qs as [|q qs IH]; intros w Hq; [cbn; split; [exists []; now rewrite app_nil_r|auto]|]. inversion_clear Hq as [|? ? H1 H2].
    unfold many. cbn [ScorerModel.many]. fold one many. destruct (one w q) as [w1 r] eqn:E1. specialize (IH w1).
    assert (K : exists l, w_heap w1 = w_heap w ++ l).
    { pose proof (one_heap w q) as Q. now rewrite E1 in Q. }
    destruct K as [l1 K]. destruct (many w1 qs) as [w2 rs]. cbn [fst snd] in *. destruct IH as [[l2 I1] I2].
    { eapply Forall_impl; [|exact H2]. intros q' Hq'. cbn beta in *. unfold heap in *. rewrite K, app_length. lia. }
    split.
    - exists (l1 ++ l2). now rewrite I1, K, app_assoc.
    - constructor.
      + destruct (nth_error (w_heap w) (q_est q)) as [s|] eqn:E; [|apply nth_error_None in E; lia].
        exists s. split; auto. pose proof (one_value w q s E) as V. now rewrite E1 in V.
      + clear - I2 K H2. induction I2 as [|q' r' l l' (s & Es & Er) I2 IH]; constructor; inversion_clear H2; auto.
        exists s. split; auto. rewrite K, nth_error_app1 in Es by auto. exact Es.
  Qed.

(** After any sequence of scorings, by any scorers, successful or not, every estimator that existed holds what it held before. *)
Theorem C173_estimators : forall w qs, Forall (fun q => q_est q < length (w_heap w)) qs ->
  forall j s, nth_error (w_heap w) j = Some s -> nth_error (w_heap (fst (many w qs))) j = Some s.
Proof.
  intros w qs H j s Hj. destruct (many_all qs w H) as [[l ->] _]. rewrite nth_error_app1; auto. apply nth_error_Some. congruence.
Qed.

(** Each result of a sequence of scorings is the one a new scorer gives when it is the first to be called. *)
Theorem C173_like_new : forall w qs, Forall (fun q => q_est q < length (w_heap w)) qs ->
  snd (many w qs) = map (fun q => snd (one (mkW (w_heap w) (fun _ => kept0)) q)) qs.
Proof.
  intros w qs H. apply many_all in H as [_ H]. induction H as [|q r qs rs (s & E & ->) H IH]; cbn [map]; [auto|]. f_equal; auto.
  symmetry. now apply one_value.
Qed.

(** So the order of the scorings does not matter, and a scoring repeated gives the same result. *)
Theorem C173_order : forall w qs qs', Forall (fun q => q_est q < length (w_heap w)) qs -> Permutation qs qs' ->
  Permutation (combine qs (snd (many w qs))) (combine qs' (snd (many w qs'))).
Proof.
  intros w qs qs' H P. assert (H' : Forall (fun q => q_est q < length (w_heap w)) qs') by (eapply Permutation_Forall; eauto).
  rewrite !C173_like_new by auto. set (g := fun q => snd (one (mkW (w_heap w) (fun _ => kept0)) q)).
  assert (C : forall l, combine l (map g l) = map (fun q => (q, g q)) l) by (induction l; cbn; congruence).
  rewrite !C. now apply Permutation_map.
Qed.

(** What can be read from the scorer after a call is about that call: the densities of its sources and targets, the normalisation it chose. *)
Theorem C173_recorded :
  (forall k s sign X y sda r, snd (imp k s sign X y sda) = Ok r ->
     exists sd m Xs Xt fs ft, check_X_y_domain (length X) y sda true all_flags = Ok sd /\ extract_source_indices sd = Ok m /\
       np_select m X = Ok Xs /\ np_select (map negb m) X = Ok Xt /\ fit_density Xs = Ok fs /\ fit_density Xt = Ok ft /\
       k_source (fst (imp k s sign X y sda)) = Some fs /\ k_target (fst (imp k s sign X y sda)) = Some ft) /\
  (forall k s sign p t X y sda r, snd (mano k s sign p t X y sda) = Ok r ->
     exists m Xt sdt logits, target_part Row X y sda = Ok (m, Xt, sdt) /\ infer s Xt = Ok logits /\
       (k_norm (fst (mano k s sign p t X y sda)) = Some "softmax"%string <-> (t < fst (mano_criterion logits))%R) /\
       (k_norm (fst (mano k s sign p t X y sda)) = Some "taylor"%string <-> (fst (mano_criterion logits) <= t)%R)).
Proof.
  split.
  - intros k s sign X y sda r. unfold imp, importance_kept.
    destruct (check_X_y_domain (length X) y sda true all_flags) as [sd|] eqn:E1; cbn [bind]; [|discriminate].
    destruct (extract_source_indices sd) as [m|] eqn:E2; cbn [bind]; [|discriminate].
    destruct (np_select m X) as [Xs|] eqn:E3; cbn [bind]; [|discriminate]. destruct (np_select (map negb m) X) as [Xt|] eqn:E4; cbn [bind]; [|discriminate].
    destruct (np_select m y) as [ys|]; cbn [bind]; [|discriminate].
    destruct (fit_density Xs) as [fs|] eqn:E5; cbn [bind]; [|discriminate]. destruct (fit_density Xt) as [ft|] eqn:E6; cbn [bind]; [|discriminate].
    intros _. exists sd, m, Xs, Xt, fs, ft. cbn [fst k_source k_target]. repeat split; auto.
  - intros k s sign p t X y sda r. unfold mano, mano_kept. destruct (target_part Row X y sda) as [[[m Xt] sdt]|] eqn:E1; cbn [bind fst snd]; [|discriminate].
    destruct (find_y_type1 y) as [[]|]; cbn [bind]; try discriminate.
    destruct (infer s Xt) as [l|] eqn:E2; [|discriminate]. destruct (mano_criterion l) as [c l'] eqn:E3.
    intros _. exists m, Xt, sdt, l. rewrite E3. cbn [fst]. split; [auto|]. split; [auto|].
    unfold Rltb. destruct (Rlt_dec t c) as [Lt|Le]; cbn [fst k_norm]; split; split; intros; auto; try discriminate; try lra.
Qed.
(** The result of one scoring is the value of MetricsModel for what the estimator holds. *)
Theorem C173_value : forall w q s, nth_error (w_heap w) (q_est q) = Some s -> snd (one w q) = value s q.
Proof. exact one_value. Qed.

(** A scoring writes only into its own scorer: what other scorers recorded stays, and a scoring by CircularValidation records nothing. After a
    successful scoring the scorer holds the record of that call. *)
Theorem C173_kept : forall w q,
  (forall j, j <> q_scorer q -> w_kept (fst (one w q)) j = w_kept w j) /\
  (forall s, nth_error (w_heap w) (q_est q) = Some s -> w_kept (fst (one w q)) (q_scorer q) =
     match q_task q with
     | TImportance => fst (imp (w_kept w (q_scorer q)) s (q_sign q) (q_X q) (q_y q) (q_sd q))
     | TMano p t => fst (mano (w_kept w (q_scorer q)) s (q_sign q) p t (q_X q) (q_y q) (q_sd q))
     | TDev tr va => fst (dev (w_kept w (q_scorer q)) s (q_sign q) tr va (q_X q) (q_y q) (q_sd q))
     | TCircular _ => w_kept w (q_scorer q)
     end).
Proof.
  intros w q. unfold one, ScorerModel.one, imp, mano, dev, at_. split.
  - intros j Hj. apply Nat.eqb_neq in Hj. destruct (nth_error (w_heap w) (q_est q)) as [s|]; [|reflexivity]. destruct (q_task q) as [|p t|tr va|dt].
    + destruct (importance_kept _ _ _ _ _ _ _ _ _ _ _) as [k r]. cbn. now rewrite Hj.
    + destruct (mano_kept _ _ _ _ _ _ _ _ _) as [k r]. cbn. now rewrite Hj.
    + destruct (dev_kept _ _ _ _ _ _ _ _ _ _ _ _ _ _) as [k r]. cbn. now rewrite Hj.
    + destruct (circular_heap _ _ _ _ _ _ _ _ _ _ _ _) as [h r]. reflexivity.
  - intros s E. rewrite E. destruct (q_task q) as [|p t|tr va|dt].
    + destruct (importance_kept _ _ _ _ _ _ _ _ _ _ _) as [k r]. cbn. now rewrite Nat.eqb_refl.
    + destruct (mano_kept _ _ _ _ _ _ _ _ _) as [k r]. cbn. now rewrite Nat.eqb_refl.
    + destruct (dev_kept _ _ _ _ _ _ _ _ _ _ _ _ _ _) as [k r]. cbn. now rewrite Nat.eqb_refl.
    + destruct (circular_heap _ _ _ _ _ _ _ _ _ _ _ _) as [h r]. reflexivity.
Qed.
End Kept.

(** ** Example: an estimator that remembers the labels of its last fit and predicts them back. CircularValidation fits the copy on other labels;
    scoring twice gives the same value, and the estimator still holds its own labels. *)
Definition ex_world : @world (list val) unit := mkW [[VNum 1; VNum 2]] (fun _ => kept0).
Definition ex_many := many (fun s (X : list Z) _ => Ok (firstn (length X) s)) (fun _ _ _ _ _ => Ok 0%R) (fun _ X => Ok (map (fun _ => [0%R; 0%R]) X))
  (fun _ X => Ok X) (fun _ X _ => Ok (map (fun _ => [1%R]) X)) (fun _ (d : list Z * list val * list Z) => Ok (rev (snd (fst d)))) (fun _ => true) (fun s => s)
  tt (fun _ => Ok tt) (fun _ X => Ok (map (fun _ => 0%R) X)) (fun _ _ => Ok tt) (fun _ (X : list Z) => Ok (map (fun _ => (1%R, 1%R)) X)) exp (fun _ _ => 0%R)
  (fun _ b => Ok (INR (length (filter (val_eqb (VNum 1)) b)))).
Definition ex_request : @request Z := mkReq 0 0 (TCircular DInt) 1 [10; 20; 30; 40]%Z (map VNum [1; 2; -1; -1]%Q) (SDArr [1; 1; -2; -2]%Z).
Example C173_ex : let (w, rs) := ex_many ex_world [ex_request; ex_request] in
  rs = [Ok (1 * 1)%R; Ok (1 * 1)%R] /\ w_heap w = [[VNum 1; VNum 2]; [VNum 1; VNum 0; mask_cls; mask_cls]; [VNum 1; VNum 0; mask_cls; mask_cls]].
Proof. cbn. repeat split. Qed.
